(** Model of the incremental tree builder: parce/treebuilderutil.py and the methods [build_new_tree], [replace_tree] and
    [process] of [TreeBuilder] in parce/treebuilder.py.

    A token in a tree is handled together with its path (the indices from the root), because the code compares and moves
    from tokens by identity. *)
From Verif Require Import Base TargetModel LexerModel TreeModel BuildModel ChangesModel.
From Coq Require Import ZArith.

(** All events of [Lexer(lexicons).events(text, pos)] and the list [lexer.lexicons] at the end; None if the stream is not
    finished after [fuel] items. *)
Section LexAll.
Variables L A : Type.
Variable consume : L -> bool.
Variable parse : L -> str -> nat -> gen (item L A).

Fixpoint l_all (text : str) (fuel : nat) (s : lstate L) : option (list (event L A) * list L) :=
  match fuel with
  | 0 => None
  | S fuel =>
      match l_step consume parse text s with
      | None => Some ([], s_lex s)
      | Some (evs, s') => match l_all text fuel s' with
                          | None => None
                          | Some (r, fin) => Some (map fst evs ++ r, fin)
                          end
      end
  end.
Definition lex_events (fuel : nat) (lexicons : list L) (text : str) (pos : nat) : option (list (event L A) * list L) :=
  l_all text fuel (l_init lexicons pos).
End LexAll.
Arguments l_all {L A}. Arguments lex_events {L A}.

Section Rebuild.
Variables L A : Type.
Notation node := (node L A).
Notation tok := (tok A).
Notation event := (event L A).

Variables l_is l_eq : L -> L -> bool.      (* [is] and [==] on lexicons; a derived lexicon is [==] to the one it derives from *)
Variable a_eq : A -> A -> bool.            (* [==] on actions *)
Variable consume : L -> bool.              (* Lexicon.consume *)

(** [Lexer(lexicons).events(text, pos)] as a list, with [lexer.lexicons] at the end.  The code reads from the generator
    lazily, and so would also return where the stream never ends but a tail is found; that is not modelled. *)
Variable evts : list L -> str -> nat -> option (list event * list L).

Definition handle := (list nat * tok)%type.

(** All tokens below a node with their paths, in order; [ptoks_in] for children from index [i] on.  This stands for
    [util.tokens] (parce/util.py:784-798) and [Context.tokens] (tree.py:727-748), see [c_tokens] in TreeModel. *)
Fixpoint ptoks (path : list nat) (n : node) {struct n} : list handle :=
  match n with
  | Tok t => [(path, t)]
  | Ctx _ cs => (fix go (i : nat) (cs : list node) : list handle :=
                   match cs with [] => [] | c :: cs' => ptoks (path ++ [i]) c ++ go (S i) cs' end) 0 cs
  end.
Fixpoint ptoks_in (path : list nat) (i : nat) (cs : list node) : list handle :=
  match cs with [] => [] | c :: cs' => ptoks (path ++ [i]) c ++ ptoks_in path (S i) cs' end.

(** The lexicons of all ancestors of the node at [path], from the root. *)
Fixpoint lex_at (n : node) (path : list nat) : list L :=
  match n, path with
  | Ctx l cs, i :: path => l :: match nth_error cs i with Some m => lex_at m path | None => [] end
  | _, _ => []
  end.

Definition root_lex (n : node) : option L := match n with Ctx l _ => Some l | Tok _ => None end.

(** [t.is_first()] (tree.py:170-176) and [t.is_first() and t.parent.lexicon.consume]. *)
Definition h_is_first (h : handle) : bool := match last_opt (fst h) with Some 0 => true | _ => false end.
Definition h_consumed (root : node) (h : handle) : bool :=
  h_is_first h && match last_opt (lex_at root (fst h)) with Some l => consume l | None => false end.

(** parce/treebuilderutil.py:298-316 [ancestors_with_index], [backward]; all tokens before the one at [path], the nearest
    first. *)
Definition back_at (root : node) (path : list nat) (d : nat) : list handle :=
  match node_at root (firstn d path), nth_error path d with
  | Some (Ctx _ cs), Some i => rev (ptoks_in (firstn d path) 0 (firstn i cs))
  | _, _ => []
  end.
Definition backward_h (root : node) (path : list nat) : list handle :=
  concat (map (back_at root path) (rev (seq 0 (length path)))).

(** parce/tree.py:280-288 [forward], with paths; the index that [ancestors_with_index] finds by bisection is the one in
    the path, see C11. *)
Definition forw_at (root : node) (path : list nat) (d : nat) : list handle :=
  match node_at root (firstn d path), nth_error path d with
  | Some (Ctx _ cs), Some i => ptoks_in (firstn d path) (S i) (skipn (S i) cs)
  | _, _ => []
  end.
Definition forward_h (root : node) (path : list nat) : list handle :=
  concat (map (forw_at root path) (rev (seq 0 (length path)))).

(** parce/treebuilderutil.py:269-295 [find_token_before]: unlike the method of Context it accepts empty contexts, whose
    [end] is 0. *)
Definition ubefore_below (pos : nat) (n : node) : option bool :=
  match n with
  | Tok t => Some (negb (pos <? k_end t))
  | Ctx _ _ => Some (match first_token n with Some t => negb (pos <? k_end t) | None => negb (pos <? 0) end)
  end.
Fixpoint ubefore_loop (fuel : nat) (path : list nat) (cs : list node) (pos : nat) : option (option handle) :=
  match fuel with
  | 0 => None
  | S fuel =>
      match bsearch_in (ubefore_below pos) cs with
      | None => None
      | Some 0 => Some None
      | Some (S i) => match nth_error cs i with
                      | None => None
                      | Some (Tok t) => Some (Some (path ++ [i], t))
                      | Some (Ctx _ cs') => ubefore_loop fuel (path ++ [i]) cs' pos
                      end
      end
  end.
Definition ufind_before (root : node) (pos : nat) : option (option handle) :=
  ubefore_loop (size root) [] (children root) pos.

(** parce/tree.py:883-906 [find_token_after], with the path. *)
Fixpoint after_loop (fuel : nat) (path : list nat) (cs : list node) (pos : nat) : option (option handle) :=
  match fuel with
  | 0 => None
  | S fuel =>
      match bsearch_in (after_below pos) cs with
      | None => None
      | Some i => if length cs <=? i then Some None
                  else match nth_error cs i with
                       | None => None
                       | Some (Tok t) => Some (Some (path ++ [i], t))
                       | Some (Ctx _ cs') => after_loop fuel (path ++ [i]) cs' pos
                       end
      end
  end.
Definition find_after_h (root : node) (pos : nat) : option (option handle) :=
  after_loop (size root) [] (children root) pos.

(** parce/treebuilderutil.py:319-338 [common_ancestor_with_trail]: the path of the common ancestor and the two trails.
    [common_from d] tries the ancestors of the other token from path length [d - 1] down. *)
Fixpoint common_from (d : nat) (s o : list nat) : option nat :=
  match d with
  | 0 => None
  | S d => if (d <? length s) && path_eqb (firstn d s) (firstn d o) then Some d else common_from d s o
  end.
Definition common_trails (s o : handle) : option (list nat * list nat * list nat) :=
  if path_eqb (fst s) (fst o) then
    let d := length (fst s) - 1 in Some (firstn d (fst s), skipn d (fst s), skipn d (fst s))
  else if k_pos (snd s) <? k_pos (snd o) then
    match common_from (length (fst o)) (fst s) (fst o) with
    | Some d => Some (firstn d (fst o), skipn d (fst s), skipn d (fst o))
    | None => None
    end
  else None.

(** parce/tree.py:1019-1060 [Range.slices] with a target factory: what happens to the factory, and the slices, which are
    nodes from an index on in the context at a path. *)
Inductive sstep := SPop | SPush (l : L) | SNodes (path : list nat) (i : nat) (ns : list node).
Fixpoint start_steps (path : list nat) (n : node) (trail : list nat) : option (list sstep) :=
  match trail with
  | [] => None
  | [i] => Some [SNodes path i (skipn i (children n))]
  | i :: trail =>
      match nth_error (children n) i with
      | None => None
      | Some m => match start_steps (path ++ [i]) m trail with
                  | None => None
                  | Some r => Some (r ++ [SPop; SNodes path (S i) (skipn (S i) (children n))])
                  end
      end
  end.
Fixpoint end_steps (path : list nat) (n : node) (trail : list nat) : option (list sstep) :=
  match n, trail with
  | Ctx l cs, [j] => Some [SPush l; SNodes path 0 (firstn (S j) cs)]
  | Ctx l cs, j :: trail =>
      match nth_error cs j with
      | None => None
      | Some m => match end_steps (path ++ [j]) m trail with
                  | None => None
                  | Some r => Some (SPush l :: SNodes path 0 (firstn j cs) :: r)
                  end
      end
  | _, _ => None
  end.
Definition range_steps (root : node) (path st et : list nat) : option (list sstep) :=
  match node_at root path with
  | None => None
  | Some c =>
      let anc := children c in
      let head := match st with
                  | [] => Some ([], 0)
                  | [i] => Some ([], i)
                  | i :: st => match nth_error anc i with
                               | None => None
                               | Some m => match start_steps (path ++ [i]) m st with
                                           | None => None
                                           | Some r => Some (r ++ [SPop], S i)
                                           end
                               end
                  end in
      match head with
      | None => None
      | Some (r, start) =>
          match et with
          | [] => Some (r ++ [SNodes path start (skipn start anc)])
          | [e] => Some (r ++ [SNodes path start (slice anc start (S e))])
          | e :: et => match nth_error anc e with
                       | None => None
                       | Some m => match end_steps (path ++ [e]) m et with
                                   | None => None
                                   | Some q => Some (r ++ SNodes path start (slice anc start e) :: q)
                                   end
                       end
          end
      end
  end.

(** parce/treebuilderutil.py:206-237 [events(nodes)] inside [events_with_tokens]: the explicit stack of indices is replaced
    by recursion.  [acc] is the part of a group met so far, the last token first; None where the code would raise. *)
Definition evs_out := option (list (event * list handle) * factory L).
Definition ev_emit (hs : list handle) (f : factory L) (rest : factory L -> evs_out) : evs_out :=
  let '(t, f) := f_get f in
  match rest f with
  | None => None
  | Some (r, f) => Some ((Event t (map (fun h => Lexeme (k_pos (snd h)) (k_text (snd h)) (k_act (snd h))) hs), hs) :: r, f)
  end.
Definition ev_list (rec : list nat -> node -> factory L -> evs_out) (path : list nat)
  : list node -> nat -> list handle -> factory L -> evs_out :=
  fix go (cs : list node) (i : nat) (acc : list handle) (f : factory L) {struct cs} : evs_out :=
    match cs with
    | [] => match acc with
            | [] => Some ([], f)
            | _ => ev_emit (rev acc) f (fun f => Some ([], f))
            end
    | c :: cs' =>
        match c with
        | Ctx l _ =>
            match acc with
            | [] => match rec (path ++ [i]) c (f_pushes f [l]) with
                    | None => None
                    | Some (r, f) => match go cs' (S i) [] (f_pops f 1) with
                                     | None => None
                                     | Some (r', f) => Some (r ++ r', f)
                                     end
                    end
            | _ => None             (* AttributeError: a Context has no [group] *)
            end
        | Tok t =>
            let h := (path ++ [i], t) in
            match acc with
            | [] => match k_group t with
                    | None => ev_emit [h] f (go cs' (S i) [])
                    | Some _ => go cs' (S i) [h] f
                    end
            | _ => match k_group t with
                   | None => None   (* TypeError: None > 0 *)
                   | Some g => if (0 <? g)%Z then go cs' (S i) (h :: acc) f
                               else ev_emit (rev (h :: acc)) f (go cs' (S i) [])
                   end
            end
        end
    end.
Fixpoint ev_node (path : list nat) (n : node) (f : factory L) {struct n} : evs_out :=
  match n with
  | Tok _ => Some ([], f)
  | Ctx _ cs => ev_list ev_node path cs 0 [] f
  end.

Fixpoint run_steps (steps : list sstep) (f : factory L) : option (list (event * list handle)) :=
  match steps with
  | [] => Some []
  | SPop :: steps => run_steps steps (f_pops f 1)
  | SPush l :: steps => run_steps steps (f_pushes f [l])
  | SNodes path i ns :: steps =>
      match ev_list ev_node path ns i [] f with
      | None => None
      | Some (r, f) => match run_steps steps f with None => None | Some r' => Some (r ++ r') end
      end
  end.

(** parce/treebuilderutil.py:183-248 [events_with_tokens] *)
Definition events_with_tokens (root : node) (st last : handle) : option (list (event * list handle)) :=
  match common_trails st last with
  | None => Some []
  | Some (path, s, e) =>
      let f := if h_is_first st && negb (length (fst st) =? 1) && (length (backward_h root (fst st)) =? 0)
               then f_pushes f_init (tl (lex_at root (fst st))) else f_init in
      match range_steps root path s e with
      | None => None
      | Some steps => run_steps steps f
      end
  end.

(** parce/treebuilderutil.py:341-356 [same_events]; [==] on namedtuples of Target and lexemes. *)
Definition target_eq (a b : option (target L)) : bool :=
  match a, b with
  | None, None => true
  | Some a, Some b => (t_pop a =? t_pop b) && list_eqb l_eq (t_push a) (t_push b)
  | _, _ => false
  end.
Definition lexeme_eq (x y : lexeme A) : bool :=
  (x_pos x =? x_pos y) && str_eqb (x_text x) (x_text y) && a_eq (x_act x) (x_act y).
Definition same_events (e1 e2 : event) : bool :=
  if negb (target_eq (e_target e1) (e_target e2) && list_eqb lexeme_eq (e_lexemes e1) (e_lexemes e2)) then false
  else match e_target e1, e_target e2 with
       | Some t1, Some t2 =>
           if length (t_push t1) =? 0 then true
           else forallb (fun p => l_is (fst p) (snd p)) (combine (t_push t1) (t_push t2))
       | _, _ => true
       end.

(** parce/treebuilderutil.py:150-160: go back ten tokens.  [cur] is [start_token], [gb] what the generator [go_back] still
    has to yield; returns [start_token], [start] and the rest of [go_back]. *)
Definition good_start (root : node) (h : handle) : bool :=
  match k_group (snd h) with None => negb (h_consumed root h) | Some _ => false end.
Fixpoint scan10 (root : node) (count : nat) (cur : handle) (gb : list handle) : handle * nat * list handle :=
  match gb with
  | [] => (cur, 0, [])
  | nx :: gb =>
      if good_start root cur then
        match count with
        | S (S c) => scan10 root (S c) nx gb
        | _ => (cur, k_pos (snd cur), gb)
        end
      else scan10 root count nx gb
  end.

(** parce/treebuilderutil.py:171-180: the events with their tokens, compared with the new events: the last tokens that are
    the same, and the new events after those. *)
Fixpoint compare_events (old : list (event * list handle)) (evs : list event) (prev : option (list handle))
  : option (list handle * list event) :=
  match old, evs with
  | (o, toks) :: old, n :: evs' =>
      if same_events o n then compare_events old evs' (Some toks)
      else match prev with Some p => Some (p, evs) | None => None end
  | _, _ => match prev with Some p => Some (p, evs) | None => None end
  end.

(** parce/treebuilderutil.py:146-180: the outer loop.  The result is None if the code would raise or not end, [Some None]
    for the value None; [events], [lexer.lexicons] at the end of those, and [tokens]. *)
Definition prepared := option (option (list event * list L * list handle)).
Fixpoint prepare_loop (fuel : nat) (root : node) (l : L) (text : str) (new_tree : bool) (start : nat)
    (st last : handle) (gb : list handle) : prepared :=
  match fuel with
  | 0 => None
  | S fuel =>
      if start =? 0 then Some None
      else
        let '(st, start, gb) := match gb with [] => (st, 0, []) | c :: gb => scan10 root 10 c gb end in
        if (start =? 0) && new_tree then Some None
        else
          match evts (if start =? 0 then [l] else lex_at root (fst st)) text start, events_with_tokens root st last with
          | Some (evs, fin), Some old =>
              match compare_events old evs None with
              | Some (prev, rest) => Some (Some (rest, fin, prev))
              | None => prepare_loop fuel root l text new_tree start st last gb
              end
          | _, _ => None
          end
  end.

(** parce/treebuilderutil.py:137-144: if the token is in the middle of a group, the last token before that group. *)
Definition group_ended (h : handle) : bool :=
  match k_group (snd h) with None => true | Some g => (g <? 0)%Z end.
Fixpoint skip_group (gb : list handle) : option (handle * list handle) :=
  match gb with
  | [] => None
  | h :: gb => if group_ended h then Some (h, gb) else skip_group gb
  end.

(** parce/treebuilderutil.py:119-180 [get_prepared_lexer] *)
Definition get_prepared_lexer (root : node) (text : str) (start : nat) (new_tree : bool) : prepared :=
  match root with
  | Tok _ => None
  | Ctx l _ =>
      match ufind_before root start with
      | None => None
      | Some None => Some None
      | Some (Some h) =>
          let gb := backward_h root (fst h) in
          match (if group_ended h then Some (h, gb) else skip_group gb) with
          | None => Some None
          | Some (last, gb) => prepare_loop (S (S (length gb))) root l text new_tree start h last gb
          end
      end
  end.

(** parce/treebuilderutil.py:258-266 [new_tree]: empty contexts inside each other with the given lexicons. *)
Fixpoint chain_tree (l : L) (ls : list L) : node :=
  match ls with [] => Ctx l [] | m :: ls => Ctx l [chain_tree m ls] end.
Definition new_tree (root : node) (h : handle) : option (bstate L A) :=
  match lex_at root (fst h) with
  | [] => None
  | l :: ls => Some (BState (chain_tree l ls) (length ls))
  end.

(** parce/treebuilder.py:306-311: handling of the target of an event, see [b_event]. *)
Definition b_target (s : bstate L A) (t : option (target L)) : option (bstate L A) :=
  match t with
  | None => Some s
  | Some t => if t_pop t <=? b_depth s
              then Some (fold_left b_push (t_push t) (BState (b_root s) (b_depth s - t_pop t)))
              else None
  end.

(** The context reached from the root of the new tree by going [d] times to the last child, and the lexicons on the way. *)
Fixpoint spine_lex (d : nat) (n : node) : list L :=
  match n with
  | Tok _ => []
  | Ctx l cs => l :: match d with
                     | 0 => []
                     | S d => match last_opt cs with Some c => spine_lex d c | None => [] end
                     end
  end.
Fixpoint spine_empty (d : nat) (n : node) : bool :=
  match n with
  | Tok _ => true
  | Ctx _ cs => match d with
                | 0 => match cs with [] => true | _ => false end
                | S d => match last_opt cs with Some c => spine_empty d c | None => true end
                end
  end.

(** parce/treebuilder.py:266-270: the tokens at which the old tail may be taken over. *)
Definition good_tail (root : node) (h : handle) : bool :=
  match k_group (snd h) with None => true | Some g => (g =? 0)%Z end && negb (h_consumed root h).

(** parce/treebuilder.py:316-321, 350-355: skip tail tokens before [pos]; no token left: [tail] becomes False.  (The code
    then keeps the last token, but it is before [pos].) *)
Fixpoint drop_before (pos : Z) (tail : list handle) : list handle :=
  match tail with
  | [] => []
  | h :: tl => if (Z.of_nat (k_pos (snd h)) <? pos)%Z then drop_before pos tl else tail
  end.

(** parce/treebuilder.py:322-323, with tree.py:402-423 [equals] and [state_matches]: the new token in the context that was
    reached in the new tree, compared to the tail token [h]. *)
Definition tail_matches (root : node) (s : bstate L A) (t : tok) (pos : Z) (h : handle) : bool :=
  (pos =? Z.of_nat (k_pos (snd h)))%Z
  && (str_eqb (k_text t) (k_text (snd h)) && a_eq (k_act t) (k_act (snd h))
      && list_eqb l_is (rev (spine_lex (b_depth s) (b_root s))) (rev (lex_at root (fst h))))
  && (negb (spine_empty (b_depth s) (b_root s))
      || negb (match last_opt (spine_lex (b_depth s) (b_root s)) with Some l => consume l | None => false end)).

(** parce/treebuilder.py:305-371, the loop over the events.  [sched] lists what other threads add to [self.changes] after
    each event; what is left of it comes in after the tree was built.  [peek] is not modelled, it works on a copy of the tree. *)
Inductive outcome :=
| OFail
| OReuse (s : bstate L A) (tail_pos : nat) (sched : list (list (entry L)))
| OEnd (s : bstate L A) (sched : list (list (entry L)))
| OChanged (s : bstate L A) (tail : list handle) (c : changes L) (sched : list (list (entry L))).
Fixpoint run_events (root : node) (s : bstate L A) (evs : list event) (tail : list handle) (offset : Z)
    (sched : list (list (entry L))) : outcome :=
  match evs with
  | [] => OEnd s sched
  | e :: evs =>
      match b_target s (e_target e), make_tokens (e_lexemes e) with
      | Some s, (t :: _) as toks =>
          let pos := (Z.of_nat (k_pos t) - offset)%Z in
          let tail := drop_before pos tail in
          match (match tail with h :: _ => if tail_matches root s t pos h then Some h else None | [] => None end) with
          | Some h => OReuse s (k_pos (snd h)) sched
          | None =>
              let s := BState (spine_app (b_depth s) (b_root s) (map Tok toks)) (b_depth s) in
              match sched with
              | (n :: ns) :: sched => OChanged s tail (get_changes (n :: ns)) sched
              | [] :: sched => run_events root s evs tail offset sched
              | [] => run_events root s evs tail offset []
              end
          end
      | _, _ => OFail
      end
  end.

(** parce/treebuilderutil.py:37 [BuildResult]; [r_left] is not in the code: the changes that come in after the tree was built. *)
Record bresult := BResult { r_tree : node; r_start : nat; r_end : nat; r_offset : Z; r_lexicons : option (list L); r_left : list (list (entry L)) }.

(** parce/treebuilder.py:281-285: the new tree without the token at [path] and everything after it. *)
Fixpoint cut_tree (n : node) (path : list nat) : node :=
  match n, path with
  | Ctx l cs, [i] => Ctx l (firstn i cs)
  | Ctx l cs, i :: path => Ctx l (firstn i cs ++ match nth_error cs i with Some m => [cut_tree m path] | None => [] end)
  | _, _ => n
  end.

(** parce/treebuilder.py:322-371: what follows after the events; [again] is the next round of the outer loop.
    A root lexicon None is not modelled. *)
Definition go_on (again : str -> L -> nat -> nat -> option node -> list handle -> Z -> list (list (entry L)) -> option bresult)
    (text : str) (l : L) (lowest : nat) (fin : list L) (offset : Z) (o : outcome) : option bresult :=
  match o with
  | OFail => None
  | OReuse s tail_pos sched => Some (BResult (b_root s) lowest tail_pos offset None sched)
  | OEnd s sched => Some (BResult (b_root s) lowest (length text) 0 (Some (tl fin)) sched)
  | OChanged s tail c sched =>
      (* 332-356 *)
      match c_root c with
      | Some None => None
      | Some (Some l) => again (c_text c) l 0 lowest None [] offset sched
      | None =>
          let start := Z.to_nat (c_start c) in
          match tail with
          | [] => again (c_text c) l start lowest (Some (b_root s)) [] offset sched
          | _ =>
              let new_tail_pos := (c_start c + c_added c)%Z in
              if (Z.of_nat (length (c_text c)) <=? new_tail_pos)%Z
              then again (c_text c) l start lowest (Some (b_root s)) [] offset sched
              else
                let offset := (offset + (c_added c - c_removed c))%Z in
                let tail := drop_before (new_tail_pos - offset) tail in
                again (c_text c) l start lowest (Some (b_root s)) tail offset sched
          end
      end
  end.

(** parce/treebuilder.py:275-372, the outer loop.  [tree] is the new tree when restarting. *)
Fixpoint build_loop (fuel : nat) (root : node) (text : str) (l : L) (start lowest : nat) (tree : option node)
    (tail : list handle) (offset : Z) (sched : list (list (entry L))) : option bresult :=
  match fuel with
  | 0 => None
  | S fuel =>
      (* 276-302: the state to go on from, the events, lexer.lexicons at the end, lowest_start *)
      let restart :=
        match tree with
        | None => Some None
        | Some t => match get_prepared_lexer t text start true with
                    | None => None
                    | Some None => Some None
                    | Some (Some (evs, fin, hs)) =>
                        match hs with
                        | [] => None
                        | h :: _ => Some (Some (BState (cut_tree t (fst h)) (length (fst h) - 1), evs, fin, lowest))
                        end
                    end
        end in
      let prep :=
        match restart with
        | None => None
        | Some (Some r) => Some r
        | Some None =>
            let start := Nat.min lowest start in
            match get_prepared_lexer root text start false with
            | None => None
            | Some (Some (evs, fin, hs)) =>
                match hs, last_opt hs with
                | h :: _, Some h' =>
                    match new_tree root h with
                    | Some s => Some (s, evs, fin, Nat.min lowest (k_end (snd h')))
                    | None => None
                    end
                | _, _ => None
                end
            | Some None =>
                match evts [l] text 0 with
                | None => None
                | Some (evs, fin) => Some (BState (Ctx l []) 0, evs, fin, 0)
                end
            end
        end in
      match prep with
      | None => None
      | Some (s, evs, fin, lowest) =>
          go_on (build_loop fuel root) text l lowest fin offset (run_events root s evs tail offset sched)
      end
  end.

(** parce/treebuilder.py:218-372 [build_new_tree]; [rl] is None for False.  Without root lexicon: not modelled. *)
Definition build_new_tree (root : node) (text : str) (rl : option L) (start removed added : nat)
    (sched : list (list (entry L))) : option bresult :=
  match root_lex root with
  | None => None
  | Some l0 =>
      let '(l, start, removed, added) :=
        match rl with Some l => (l, 0, 0, length text) | None => (l0, start, removed, added) end in
      let end_ := start + removed in
      let offset := (Z.of_nat added - Z.of_nat removed)%Z in
      let tail :=
        if start + added <? length text then
          match find_after_h root end_ with
          | None => None
          | Some None => Some []
          | Some (Some h) => Some (filter (good_tail root) (h :: forward_h root (fst h)))
          end
        else Some [] in
      match tail with
      | None => None
      | Some tail => build_loop (S (length sched)) root text l start start None tail offset sched
      end
  end.

(** Adding [offset] to the position of all tokens below a node. *)
Definition shift_tok (offset : Z) (t : tok) : tok :=
  Token (Z.to_nat (Z.of_nat (k_pos t) + offset)) (k_text t) (k_act t) (k_group t).
Fixpoint shift_node (offset : Z) (n : node) : node :=
  match n with
  | Tok t => Tok (shift_tok offset t)
  | Ctx l cs => Ctx l (map (shift_node offset) cs)
  end.

(** Python [c[a:b] = t], [b] None: up to the end. *)
Definition set_slice (c : list node) (a : nat) (b : option nat) (t : list node) : list node :=
  firstn a c ++ t ++ match b with None => [] | Some b => skipn (Nat.max a b) c end.

(** parce/treebuilder.py:406-413: the context that really changes (as a path), the nodes of the tree for it, and the number of
    indices to remove from the trails.  [k] counts the rounds, [i] is the loop variable. *)
Fixpoint rt_common (k i : nat) (path : list nat) (t : list node) (st et : list nat) : list nat * list node * nat :=
  match st, et with
  | s :: st, e :: et =>
      match t with
      | [Ctx _ t'] => if s =? e then rt_common (S k) k (path ++ [s]) t' st et else (path, t, k)
      | _ => (path, t, k)
      end
  | _, _ => (path, t, i)
  end.

(** parce/treebuilder.py:418-438: the nodes [t] of the new tree, with what comes after the end trail in [c] joined to them.
    [first] is [slice_end is None].  None: [t] is empty although the trail goes on, which does not happen. *)
Fixpoint rt_join (offset : Z) (first : bool) (c t : list node) (et : list nat) : option (list node) :=
  match et with
  | [] => Some t
  | e :: et =>
      let next := match et with [] => e | _ => S e end in     (* [i + 1], where the last index was made one less *)
      let t1 := if first then t else t ++ map (shift_node offset) (skipn next c) in
      match et with
      | [] => Some t1
      | _ =>
          match last_opt t, nth_error c e with
          | Some (Ctx l ts), Some m =>
              match rt_join offset false (children m) ts et with
              | None => None
              | Some ts => Some (firstn (length t - 1) t1 ++ Ctx l ts :: skipn (length t) t1)
              end
          | _, _ => None
          end
      end
  end.
Definition slice_end (et : list nat) : option nat :=
  match et with [] => None | [e] => Some e | e :: _ => Some (S e) end.

(** parce/treebuilder.py:448-462: replacing what comes after the start trail in [c]. *)
Fixpoint rt_start (c t : list node) (st : list nat) (se : option nat) : option (list node) :=
  match st with
  | [] => Some (set_slice c 0 se t)
  | [i] => Some (set_slice c (S i) se t)
  | i :: st =>
      match t, nth_error c i with
      | Ctx _ t0 :: ts, Some (Ctx l ci) =>
          match rt_start ci t0 st None with
          | None => None
          | Some ci => Some (set_slice (firstn i c ++ Ctx l ci :: skipn (S i) c) (S i) se ts)
          end
      | _, _ => None
      end
  end.

(** parce/treebuilder.py:494-502 [replace_pos] for the children from index [i] on. *)
Definition replace_pos (offset : Z) (i : nat) (cs : list node) : list node :=
  firstn i cs ++ map (shift_node offset) (skipn i cs).

(** parce/treebuilder.py:471-472: for all ancestors of the context at [path]; [d] counts down from the length of the path.
    The index is found by bisection, see [ancestor_with_index]. *)
Fixpoint shift_ancestors (offset : Z) (d : nat) (path : list nat) (root : node) : option node :=
  match d with
  | 0 => Some root
  | S d => match ancestor_with_index root path d with
           | None => None
           | Some (_, i) => shift_ancestors offset d path (update_at root (firstn d path) (replace_pos offset (S i)))
           end
  end.

(** parce/treebuilder.py:374-474 [replace_tree]: the new root.  [trail] turns the result of the search in the old tree
    into its trail, [None] where the subscript would fail. *)
Definition trail_of (r : option (option (tok * list Z))) : option (list nat) :=
  match r with Some (Some (_, t)) => Some (nat_trail t) | _ => None end.
Definition replace_tree (root : node) (r : bresult) : option node :=
  match root, r_tree r with
  | Ctx l0 cs, Ctx l t =>
      if negb (l_eq l l0) then Some (Ctx l t)
      else
        match (if r_start r =? 0 then Some [] else trail_of (find_token_left_with_trail cs (r_start r))),
              (match r_lexicons r with None => trail_of (find_token_with_trail cs (r_end r)) | Some _ => Some [] end) with
        | Some st, Some et =>
            let '(path, t, i) := rt_common 0 0 [] t st et in
            let st := skipn i st in
            let et := skipn i et in
            match node_at root path with
            | Some (Ctx _ c) =>
                match rt_join (r_offset r) true c t et with
                | None => None
                | Some t =>
                    let se := slice_end et in
                    match rt_start c t st se with
                    | None => None
                    | Some c' =>
                        if (r_offset r =? 0)%Z then Some (update_at root path (fun _ => c'))
                        else
                          let c' := match se with
                                    | None => c'
                                    | Some e => replace_pos (r_offset r) (length c' - (length c - e)) c'
                                    end in
                          shift_ancestors (r_offset r) (length path) path (update_at root path (fun _ => c'))
                    end
                end
            | _ => None
            end
        | _, _ => None
        end
  | _, _ => None
  end.

(** The attributes [root], [start], [end], [lexicons] of a [TreeBuilder] (parce/treebuilder.py:155-166). *)
Record builder := Builder { tb_root : node; tb_start : nat; tb_end : nat; tb_lexicons : list L }.

(** parce/treebuilder.py:541-586 [process], one round: the change that is pending when it starts; [sched] are changes that come
    in while the tree is built. *)
Definition process1 (tb : builder) (text : str) (rl : option L) (start removed added : nat) (sched : list (list (entry L)))
  : option builder :=
  match build_new_tree (tb_root tb) text rl start removed added sched with
  | None => None
  | Some r =>
      match replace_tree (tb_root tb) r with
      | None => None
      | Some root =>
          Some (Builder root (r_start r) (Z.to_nat (Z.of_nat (r_end r) + r_offset r))
                  (match r_lexicons r with Some ls => ls | None => tb_lexicons tb end))
      end
  end.

(** The changes that are still to come in when the tree has been built. *)
Definition changes_left (tb : builder) (text : str) (rl : option L) (start removed added : nat) (sched : list (list (entry L)))
  : option (list (list (entry L))) :=
  match build_new_tree (tb_root tb) text rl start removed added sched with Some r => Some (r_left r) | None => None end.

End Rebuild.
Arguments ptoks {L A}. Arguments ptoks_in {L A}. Arguments lex_at {L A}. Arguments root_lex {L A}.
Arguments h_is_first {A}. Arguments h_consumed {L A}. Arguments back_at {L A}. Arguments backward_h {L A}. Arguments forw_at {L A}.
Arguments forward_h {L A}. Arguments ubefore_below {L A}. Arguments ubefore_loop {L A}. Arguments ufind_before {L A}.
Arguments after_loop {L A}. Arguments find_after_h {L A}. Arguments common_trails {A}.
Arguments SPop {L A}. Arguments SPush {L A}. Arguments SNodes {L A}.
Arguments start_steps {L A}. Arguments end_steps {L A}. Arguments range_steps {L A}. Arguments ev_emit {L A}.
Arguments ev_list {L A}. Arguments ev_node {L A}. Arguments run_steps {L A}. Arguments events_with_tokens {L A}.
Arguments target_eq {L}. Arguments lexeme_eq {A}. Arguments same_events {L A}. Arguments good_start {L A}. Arguments scan10 {L A}.
Arguments compare_events {L A}. Arguments prepare_loop {L A}. Arguments group_ended {A}. Arguments skip_group {A}.
Arguments get_prepared_lexer {L A}. Arguments chain_tree {L A}. Arguments new_tree {L A}. Arguments b_target {L A}.
Arguments spine_lex {L A}. Arguments spine_empty {L A}. Arguments good_tail {L A}. Arguments drop_before {A}.
Arguments tail_matches {L A}. Arguments OFail {L A}. Arguments OReuse {L A}. Arguments OEnd {L A}. Arguments OChanged {L A}.
Arguments run_events {L A}. Arguments go_on {L A}. Arguments BResult {L A}. Arguments r_tree {L A}. Arguments r_left {L A}. Arguments changes_left {L A}. Arguments r_start {L A}. Arguments r_end {L A}.
Arguments r_offset {L A}. Arguments r_lexicons {L A}. Arguments cut_tree {L A}. Arguments build_loop {L A}.
Arguments build_new_tree {L A}. Arguments shift_tok {A}. Arguments shift_node {L A}. Arguments set_slice {L A}.
Arguments rt_common {L A}. Arguments rt_join {L A}. Arguments rt_start {L A}. Arguments replace_pos {L A}.
Arguments shift_ancestors {L A}. Arguments trail_of {A}. Arguments replace_tree {L A}. Arguments Builder {L A}.
Arguments tb_root {L A}. Arguments tb_start {L A}. Arguments tb_end {L A}. Arguments tb_lexicons {L A}. Arguments process1 {L A}.
