(** Model of the class [Transformer] in parce/transform.py: transforming a text, transforming a tree with the cache of
    results, and removing results from the cache.

    Languages, names and arguments of lexicons and the results of transform methods are arbitrary types.  A transform
    method is a function of its [ItemList]: it has no side effects and does not raise. *)
From Verif Require Import Base TargetModel LexerModel TreeModel BuildModel.
From Coq Require Import ZArith.

Section Transform.
Variables L A R Lang Name Arg : Type.
Variable lang : L -> Lang.                   (* Lexicon.language *)
Variable name : L -> Name.                   (* Lexicon.name *)
Variable arg : L -> Arg.                     (* Lexicon.arg *)
Variable lang_is : Lang -> Lang -> bool.     (* [is], on languages *)

(** What is in an [ItemList]: a token, an [Item] with the name of a lexicon, or the [Item] named "<untransformed>" (the object
    is then a Context; methods can not see its identity here).  parce/transform.py:31-51 *)
Inductive titem := IToken (t : tok A) | IObj (nm : Name) (obj : R) | IUntransformed (c : node L A).

(** parce/transform.py:54-80 [ItemList]: a list with an argument. *)
Record itemlist := ItemList { il_arg : Arg; il_items : list titem }.
Definition il_add (il : itemlist) (xs : list titem) : itemlist := ItemList (il_arg il) (il_items il ++ xs).

(** A method of a Transform, and parce/transform.py:509-534 whether it was decorated with [add_untransformed]. *)
Record method := Method { m_call : itemlist -> R; m_untransformed : bool }.

(** parce/transform.py:426-433 [get_transform] and [getattr(transform, name, None)].  A language without Transform ([None]) is a
    Transform without methods. *)
Definition transform := Name -> option method.
Variable get_transform : Lang -> transform.

(** The variables [curlang] and [transform]: parce/transform.py:262-264, 321-323. *)
Definition current := (Lang * transform)%type.
Definition cur_init (l : L) : current := (lang l, get_transform (lang l)).
Definition cur_switch (cur : current) (l : L) : current :=
  if lang_is (lang l) (fst cur) then cur else (lang l, get_transform (lang l)).

(** ** Transforming a text *)

(** parce/transform.py:210-213 [make_target]; a negative number in the code is its absolute value here. *)
Definition make_target (pop : nat) (push : list L) : option (target L) :=
  match pop, push with 0, [] => None | _, _ => Some (Target pop push) end.

(** parce/transform.py:215-236 [build_tree]: the tree, the next event, and the events that are left.  The first part,
    which makes a chain of contexts, is [bt_start]. *)
Definition bt_start (lexicons : list L) : option (bstate L A) :=
  match lexicons with
  | [] => None
  | l :: ls => Some (fold_left b_push ls (BState (Ctx l []) 0))
  end.
Fixpoint bt_loop (s : bstate L A) (evs : list (event L A)) : node L A * option (event L A) * list (event L A) :=
  match evs with
  | [] => (b_root s, None, [])
  | e :: evs =>
      let add s := BState (spine_app (b_depth s) (b_root s) (map Tok (make_tokens (e_lexemes e)))) (b_depth s) in
      match e_target e with
      | None => bt_loop (add s) evs
      | Some t =>
          if t_pop t <=? b_depth s
          then bt_loop (add (fold_left b_push (t_push t) (BState (b_root s) (b_depth s - t_pop t)))) evs
          else (b_root s, Some (Event (make_target (t_pop t - b_depth s) (t_push t)) (e_lexemes e)), evs)
      end
  end.

(** parce/transform.py:238-251 [consume_events] *)
Fixpoint consume_events (pop : Z) (evs : list (event L A)) : option (event L A) * list (event L A) :=
  match evs with
  | [] => (None, [])
  | e :: evs =>
      match e_target e with
      | None => consume_events pop evs
      | Some t =>
          let pop := (pop - Z.of_nat (t_pop t))%Z in
          if (pop <=? 0)%Z then (Some (Event (make_target (Z.to_nat (- pop)) (t_push t)) (e_lexemes e)), evs)
          else consume_events (pop + Z.of_nat (length (t_push t)))%Z evs
      end
  end.

(** parce/tree.py:1073-1088 [make_tokens]: [lexemes[0]] fails if there are no lexemes. *)
Definition py_make_tokens (xs : list (lexeme A)) : option (list (tok A)) :=
  match xs with [] => None | _ => Some (make_tokens xs) end.

(** The variables of [transform_text]; a frame of the stack is [(olditems, meth, name, add_untransformed)] (the variable
    [lexicon] is not used). *)
Record tstate := TState {
  t_items : itemlist; t_stack : list (itemlist * method * Name * bool); t_add : bool; t_cur : current }.

(** parce/transform.py:266-269 and 290-294: finishing one context. None: [pop] from an empty list. *)
Definition tt_pop (s : tstate) : option tstate :=
  match t_stack s with
  | [] => None
  | (old, m, nm, add) :: stack => Some (TState (il_add old [IObj nm (m_call m (t_items s))]) stack add (t_cur s))
  end.
Fixpoint tt_pops (n : nat) (s : tstate) : option tstate :=
  match n with 0 => Some s | S n => match tt_pop s with None => None | Some s => tt_pops n s end end.

(** parce/transform.py:270-279, the loop over [target.push]; the second component is [target.push[i:]] when there is no method
    for the [i]-th lexicon. *)
Fixpoint tt_push (s : tstate) (ls : list L) : tstate * list L :=
  match ls with
  | [] => (s, [])
  | l :: ls' =>
      let cur := cur_switch (t_cur s) l in
      match snd cur (name l) with
      | Some m => tt_push (TState (ItemList (arg l) []) ((t_items s, m, name l, t_add s) :: t_stack s) (m_untransformed m) cur) ls'
      | None => (TState (t_items s) (t_stack s) (t_add s) cur, ls)
      end
  end.

(** parce/transform.py:265-288, the loop [while target]: the lexemes to add, and the events that are left.  Every round but the last
    takes events, so [fuel] more than the number of events suffices. *)
Fixpoint tt_target (fuel : nat) (s : tstate) (tgt : option (target L)) (lx : list (lexeme A)) (evs : list (event L A))
  : option (tstate * list (lexeme A) * list (event L A)) :=
  match tgt with
  | None => Some (s, lx, evs)
  | Some t =>
      match fuel with
      | 0 => None
      | S fuel =>
          match tt_pops (t_pop t) s with
          | None => None
          | Some s =>
              match tt_push s (t_push t) with
              | (s, []) => Some (s, lx, evs)
              | (s, missing) =>
                  let next s (r : option (event L A) * list (event L A)) :=
                    match r with
                    | (Some e, evs) => tt_target fuel s (e_target e) (e_lexemes e) evs
                    | (None, evs) => tt_target fuel s None [] evs
                    end in
                  if t_add s then
                    match bt_start missing with
                    | None => None
                    | Some b => let '(c, e, evs) := bt_loop b evs in
                                next (TState (il_add (t_items s) [IUntransformed c]) (t_stack s) (t_add s) (t_cur s)) (e, evs)
                    end
                  else next s (consume_events (Z.of_nat (length missing)) evs)
              end
          end
      end
  end.

(** parce/transform.py:264-288, the loop over the events. *)
Fixpoint tt_events (fuel : nat) (s : tstate) (evs : list (event L A)) : option tstate :=
  match evs with
  | [] => Some s
  | e :: evs =>
      match fuel with
      | 0 => None
      | S fuel =>
          match tt_target (S (S (length evs))) s (e_target e) (e_lexemes e) evs with
          | None => None
          | Some (s, lx, evs) =>
              match py_make_tokens lx with
              | None => None
              | Some ts => tt_events fuel (TState (il_add (t_items s) (map IToken ts)) (t_stack s) (t_add s) (t_cur s)) evs
              end
          end
      end
  end.

(** parce/transform.py:197-295 [transform_text], given the events of the lexer.  The outer option is None where the code raises; the
    inner one for the value None. *)
Definition transform_text (root : L) (evs : list (event L A)) : option (option R) :=
  let cur := cur_init root in
  match snd cur (name root) with
  | None => Some None
  | Some m =>
      match tt_events (length evs) (TState (ItemList (arg root) []) [] (m_untransformed m) cur) evs with
      | None => None
      | Some s => match tt_pops (length (t_stack s)) s with
                  | None => None
                  | Some s => Some (Some (m_call m (t_items s)))
                  end
      end
  end.

(** ** Transforming a tree *)

(** Contexts have an identity here: the label of a context is a number and its lexicon. *)
Notation inode := (node (nat * L) A).
Fixpoint erase (n : inode) : node L A :=
  match n with
  | Tok t => Tok t
  | Ctx (_, l) cs => Ctx l (map erase cs)
  end.

(** parce/transform.py:195 [_cache], for the contexts below the root. *)
Definition cache := nat -> option R.
Definition cache_set (c : cache) (id : nat) (v : R) : cache := fun i => if i =? id then Some v else c i.

(** parce/transform.py:313-337, the loop [for i in range(i, len(node))] from child [i] on: the items and current Transform after it,
    and if it was left by [break], the child to go into and its method. *)
Fixpoint p_scan (ca : cache) (add : bool) (i : nat) (cs : list inode) (items : itemlist) (cur : current)
  : itemlist * current * option (nat * method) :=
  match cs with
  | [] => (items, cur, None)
  | Tok t :: cs => p_scan ca add (S i) cs (il_add items [IToken t]) cur
  | Ctx (id, l) ccs :: cs =>
      let cur := cur_switch cur l in
      match snd cur (name l) with
      | Some m =>
          match ca id with
          | Some obj => p_scan ca add (S i) cs (il_add items [IObj (name l) obj]) cur
          | None => (items, cur, Some (i, m))
          end
      | None => p_scan ca add (S i) cs (if add then il_add items [IUntransformed (erase (Ctx (id, l) ccs))] else items) cur
      end
  end.

(** The variables of [transform_tree]; the variable [node] is a path in the tree.  A frame of the stack is
    [(items, i + 1, meth, add_untransformed)]. *)
Record pstate := PState {
  p_path : list nat; p_items : itemlist; p_i : nat; p_stack : list (itemlist * nat * method * bool);
  p_add : bool; p_cur : current; p_cache : cache }.

(** The test [self._interrupt[tree]] when it is made for the [j]-th time in a run: the flag is set just before the test with number
    [n], or never. *)
Definition interrupted (intr : option nat) (j : nat) : bool :=
  match intr with Some n => n <=? j | None => false end.

(** What [transform_tree] returns; when interrupted that is the value None. *)
Inductive outcome := Value (v : option R) | Interrupted.

(** parce/transform.py:312-348, the loop [while not self._interrupt[tree]].  [j] counts the rounds. *)
Fixpoint p_loop (fuel : nat) (tree : inode) (root_meth : method) (intr : option nat) (j : nat) (s : pstate)
  : option (outcome * cache) :=
  match fuel with
  | 0 => None
  | S fuel =>
      if interrupted intr j then Some (Interrupted, p_cache s)
      else
        match node_at tree (p_path s) with
        | Some (Ctx (id, l) cs) =>
            match p_scan (p_cache s) (p_add s) (p_i s) (skipn (p_i s) cs) (p_items s) (p_cur s) with
            | (items, cur, Some (i, m)) =>
                match nth_error cs i with
                | Some (Ctx (_, l') _) =>
                    p_loop fuel tree root_meth intr (S j)
                      (PState (p_path s ++ [i]) (ItemList (arg l') []) 0 ((items, i + 1, m, p_add s) :: p_stack s) (m_untransformed m)
                         cur (p_cache s))
                | _ => None
                end
            | (items, cur, None) =>
                match p_stack s with
                | (old, i, m, add) :: stack =>
                    let obj := m_call m items in
                    p_loop fuel tree root_meth intr (S j)
                      (PState (removelast (p_path s)) (il_add old [IObj (name l) obj]) i stack add cur (cache_set (p_cache s) id obj))
                | [] => Some (Value (Some (m_call root_meth items)), p_cache s)
                end
            end
        | _ => None
        end
  end.

(** Twice the number of contexts bounds the number of rounds. *)
Definition p_fuel (tree : inode) : nat := S (2 * size tree).

(** parce/transform.py:297-348 [transform_tree]: the result, and the cache afterwards. *)
Definition transform_tree (ca : cache) (tree : inode) (intr : option nat) : option (outcome * cache) :=
  match tree with
  | Tok _ => None
  | Ctx (_, l) _ =>
      let cur := cur_init l in
      match snd cur (name l) with
      | None => Some (Value None, ca)
      | Some m => p_loop (p_fuel tree) tree m intr 0 (PState [] (ItemList (arg l) []) 0 [] (m_untransformed m) cur ca)
      end
  end.

(** The root has its own entry in the cache, which is the result of the Transformer; the value None there is the same as no entry. *)
Record tcache := TCache { tc_nodes : cache; tc_result : option R }.

(** parce/transform.py:360-376 [process]: [done] is the value of the flag after [transform_tree]; it has been set if the run was
    interrupted. *)
Definition t_process (tc : tcache) (tree : inode) (intr : option nat) (done : bool) : option tcache :=
  match transform_tree (tc_nodes tc) tree intr with
  | None => None
  | Some (Value v, ca) => Some (TCache ca (if done then tc_result tc else v))
  | Some (Interrupted, ca) => Some (TCache ca (tc_result tc))
  end.

(** parce/transform.py:392-401 [invalidate_node]: [ids] are the identities of the context and its ancestors, innermost first, without
    the root.  None: KeyError. *)
Fixpoint invalidate (ca : cache) (ids : list nat) : option cache :=
  match ids with
  | [] => Some ca
  | id :: ids => match ca id with
                 | None => None
                 | Some _ => invalidate (fun i => if i =? id then None else ca i) ids
                 end
  end.

End Transform.
Arguments IToken {L A R Name}. Arguments IObj {L A R Name}. Arguments IUntransformed {L A R Name}.
Arguments ItemList {L A R Name Arg}. Arguments il_arg {L A R Name Arg}. Arguments il_items {L A R Name Arg}. Arguments il_add {L A R Name Arg}.
Arguments Method {L A R Name Arg}. Arguments m_call {L A R Name Arg}. Arguments m_untransformed {L A R Name Arg}.
Arguments make_target {L}. Arguments bt_start {L A}. Arguments bt_loop {L A}. Arguments consume_events {L A}. Arguments py_make_tokens {A}.
Arguments erase {L A}. Arguments cache_set {R}. Arguments interrupted : clear implicits.
Arguments Value {R}. Arguments Interrupted {R}. Arguments TCache {R}. Arguments tc_nodes {R}. Arguments tc_result {R}. Arguments invalidate {R}.
