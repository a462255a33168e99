(** Model of parce/regex.py: [words2regexp] and [make_charclass] with all functions they use, and of the functions [words] and
    [chars] in parce/rule.py. *)
From Verif Require Import Base.

(** Python's [re.escape] (since Python 3.7): a backslash before the characters ()[]{}?*+-|^$\.&~# and white space. *)
Definition specials : list nat :=
  [40; 41; 91; 93; 123; 125; 63; 42; 43; 45; 124; 94; 36; 92; 46; 38; 126; 35; 32; 9; 10; 13; 11; 12].
Definition esc1 (c : nat) : str := if existsb (Nat.eqb c) specials then [92; c] else [c].
Definition re_escape (s : str) : str := flat_map esc1 s.

(** parce/regex.py:51-76 [make_charclass]; [sorted(map(ord, set(chars)))] is [sort_set]. *)
Fixpoint ins_set (c : nat) (l : list nat) : list nat :=
  match l with
  | [] => [c]
  | d :: l' => if c <? d then c :: l else if c =? d then l else d :: ins_set c l'
  end.
Definition sort_set (cs : list nat) : list nat := fold_right ins_set [] cs.
Definition cc_step (buf : list (nat * nat)) (c : nat) : list (nat * nat) :=
  match last_opt buf with
  | Some (a, b) => if S b =? c then removelast buf ++ [(a, c)] else buf ++ [(c, c)]
  | None => [(c, c)]
  end.
Definition cc_str (r : nat * nat) : str :=
  let '(a, b) := r in
  if a =? b then re_escape [a] else if S a =? b then re_escape [a; b] else re_escape [a] ++ 45 :: re_escape [b].
Definition make_charclass (chars : list nat) : str := flat_map cc_str (fold_left cc_step (sort_set chars) []).

(** parce/rule.py:352-367 [chars] *)
Definition rule_chars (chars : list nat) (positive : bool) : str :=
  91 :: (if positive then [] else [94]) ++ make_charclass chars ++ [93].

(** parce/regex.py:79-102 [common_suffix].  [cpre] is the common part of a word and other words, from their first character. *)
Fixpoint cpre (w : str) (ws : list str) : str :=
  match w with
  | [] => []
  | c :: w => if forallb (fun v => match v with d :: _ => c =? d | [] => false end) ws then c :: cpre w (map (@tl nat) ws) else []
  end.
Definition common_suffix (words : list str) : list str * str :=
  match words with
  | [] => (words, [])
  | w :: ws => let suffix := rev (cpre (rev w) (map (@rev nat) ws)) in
               match suffix with
               | [] => (words, [])
               | _ => (map (drop_last (length suffix)) words, suffix)
               end
  end.

(** parce/regex.py:193-205 (in [make_trie]): the trie before merging.  The key None of the dictionary is the boolean; where it
    stands among the other keys makes no difference. *)
Inductive trie := Trie (e : bool) (cs : list (nat * trie)).
Fixpoint t_add (w : str) (t : trie) : trie :=
  match w, t with
  | [], Trie _ cs => Trie true cs
  | c :: w, Trie e cs =>
      Trie e ((fix go (cs : list (nat * trie)) : list (nat * trie) :=
                 match cs with
                 | [] => [(c, t_add w (Trie false []))]
                 | (d, n) :: cs => if c =? d then (d, t_add w n) :: cs else (d, n) :: go cs
                 end) cs)
  end.

(** parce/regex.py:207-222: nodes with only one child are merged. *)
Inductive rtrie := RTrie (e : bool) (cs : list (str * rtrie)).
Fixpoint t_merge (add : str -> str -> str) (key : str) (n : trie) {struct n} : str * rtrie :=
  match n with
  | Trie false [(k, n')] => t_merge add (add key [k]) n'
  | Trie e cs => (key, RTrie e (map (fun p => match p with (k, n) => t_merge add [k] n end) cs))
  end.
Definition make_trie (words : list str) (reverse : bool) : rtrie :=
  let chars := fun w => if reverse then rev w else w in
  let add := fun k1 k2 : str => if reverse then k2 ++ k1 else k1 ++ k2 in
  match fold_left (fun t w => t_add (chars w) t) words (Trie false []) with
  | Trie e cs => RTrie e (map (fun p => t_merge add [fst p] (snd p)) cs)
  end.

(** [==] on the dictionaries: the same keys with equal values. *)
Fixpoint rt_eqb (a b : rtrie) {struct a} : bool :=
  match a, b with
  | RTrie e cs, RTrie e' cs' =>
      Bool.eqb e e'
      && forallb (fun p => match p with (k, n) => existsb (fun q => str_eqb k (fst q) && rt_eqb n (snd q)) cs' end) cs
      && forallb (fun q => existsb (fun p => match p with (k, n) => str_eqb k (fst q) && rt_eqb n (snd q) end) cs) cs'
  end.

(** The tuples made by [trie_to_regexp_tuple]: a part is a string or a frozenset.  The members of a frozenset are None (the
    boolean), strings and tuples.  The order of members has no meaning; see [order] below. *)
Inductive part := PStr (s : str) | PSet (opt : bool) (strs : list str) (tups : list (list part)).
Notation tuple := (list part).

(** [==] on parts, and on tuples. *)
Fixpoint part_eqb (a b : part) {struct a} : bool :=
  match a, b with
  | PStr s, PStr t => str_eqb s t
  | PSet o ss ts, PSet o' ss' ts' =>
      let tup_eqb := fix tup_eqb (u v : tuple) {struct u} : bool :=
        match u, v with [], [] => true | x :: u, y :: v => part_eqb x y && tup_eqb u v | _, _ => false end in
      Bool.eqb o o'
      && forallb (fun s => existsb (str_eqb s) ss') ss && forallb (fun s => existsb (str_eqb s) ss) ss'
      && forallb (fun u => existsb (fun v => tup_eqb u v) ts') ts && forallb (fun v => existsb (fun u => tup_eqb u v) ts) ts'
  | _, _ => false
  end.
Definition tup_eqb : tuple -> tuple -> bool :=
  fix tup_eqb (u v : tuple) {struct u} : bool :=
    match u, v with [], [] => true | x :: u, y :: v => part_eqb x y && tup_eqb u v | _, _ => false end.

(** A set under construction ([groups]): None, strings, tuples. *)
Definition gset := (bool * list str * list tuple)%type.
Definition g_str (s : str) (g : gset) : gset :=
  let '(o, ss, ts) := g in (o, if existsb (str_eqb s) ss then ss else ss ++ [s], ts).
Definition g_tup (u : tuple) (g : gset) : gset :=
  let '(o, ss, ts) := g in (o, ss, if existsb (tup_eqb u) ts then ts else ts ++ [u]).

(** parce/regex.py:301-317: the keys of equal nodes together; [t] is what [trie_to_regexp_tuple] gives for the node. *)
Fixpoint add_seen (k : str) (n : rtrie) (t : option tuple) (l : list (list str * rtrie * option tuple))
  : list (list str * rtrie * option tuple) :=
  match l with
  | [] => [([k], n, t)]
  | (ks, m, u) :: l => if rt_eqb m n then (ks ++ [k], m, u) :: l else (ks, m, u) :: add_seen k n t l
  end.
Definition seen_nodes (kids : list (str * rtrie * option tuple)) : list (list str * rtrie * option tuple) :=
  fold_left (fun l p => match p with (k, n, t) => add_seen k n t l end) kids [].

(** [not any(node)] *)
Definition is_leaf (n : rtrie) : bool := match n with RTrie _ [] => true | _ => false end.

(** parce/regex.py:319-337: one group is added.  [optimize keys] is [trie_to_regexp_tuple(make_trie(keys, True), True)].  None
    if the code raises. *)
Definition add_group (reverse : bool) (optimize : list str -> option tuple) (p : list str * rtrie * option tuple) (g : option gset)
  : option gset :=
  let combine := fun r1 r2 : tuple => if reverse then r2 ++ r1 else r1 ++ r2 in
  let '(keys, n, t) := p in
  match g with
  | None => None
  | Some g =>
      match keys with
      | [k] => if is_leaf n then Some (g_str k g)
               else match t with Some t => Some (g_tup (combine [PStr k] t) g) | None => None end
      | _ =>
          let frozen := [PSet false keys []] in
          if reverse then
            if is_leaf n then Some (fold_left (fun g k => g_str k g) keys g)
            else match t with Some t => Some (g_tup (combine frozen t) g) | None => None end
          else
            match optimize keys with
            | None => None
            | Some r =>
                if tup_eqb r frozen && is_leaf n then Some (fold_left (fun g k => g_str k g) keys g)
                else match t with Some t => Some (g_tup (combine r t) g) | None => None end
            end
      end
  end.

(** parce/regex.py:225-338 [trie_to_regexp_tuple].  A [groups] with one member that is not a tuple would be returned as it is, and
    make the caller fail: None. *)
Fixpoint to_tuple (reverse : bool) (optimize : list str -> option tuple) (node : rtrie) {struct node} : option tuple :=
  let combine := fun r1 r2 : tuple => if reverse then r2 ++ r1 else r1 ++ r2 in
  match node with
  | RTrie true [] => Some []
  | RTrie false [(k, n)] => match to_tuple reverse optimize n with Some t => Some (combine [PStr k] t) | None => None end
  | RTrie e cs =>
      let kids := map (fun p => match p with (k, n) => (k, n, to_tuple reverse optimize n) end) cs in
      match fold_left (fun g p => add_group reverse optimize p g) (seen_nodes kids) (Some (e, [], [])) with
      | None => None
      | Some (false, [], [t]) => Some t
      | Some (false, [s], []) => None
      | Some (true, [], []) => None
      | Some (o, ss, ts) => Some [PSet o ss ts]
      end
  end.
Definition rev_tuple (keys : list str) : option tuple := to_tuple true (fun _ => None) (make_trie keys true).
Definition trie_tuple (node : rtrie) : option tuple := to_tuple false rev_tuple node.

(** parce/regex.py:359-424 [get_items], [merge_items]: items with their minimal and maximal count. *)
Inductive item := IStr (s : str) | ISet (strs : list str) (tups : list tuple).
Definition set_eqb (ss ss' : list str) : bool := forallb (fun s => existsb (str_eqb s) ss') ss && forallb (fun s => existsb (str_eqb s) ss) ss'.
Definition item_eqb (a b : item) : bool :=
  match a, b with
  | IStr s, IStr t => str_eqb s t
  | ISet ss ts, ISet ss' ts' =>
      set_eqb ss ss' && forallb (fun u => existsb (tup_eqb u) ts') ts && forallb (fun v => existsb (fun u => tup_eqb u v) ts) ts'
  | _, _ => false
  end.
Notation citem := (item * nat * nat)%type.
Definition merge_step (items : list citem) (c : citem) : list citem :=
  match last_opt items with
  | Some (i, lo, hi) => let '(j, lo', hi') := c in
                        if item_eqb i j then removelast items ++ [(i, lo + lo', hi + hi')] else items ++ [c]
  | None => [c]
  end.
Definition merge_list (l : list citem) : list citem := fold_left merge_step l [].
Fixpoint get_items (p : part) : list citem :=
  match p with
  | PStr s => [(IStr s, 1, 1)]
  | PSet opt ss ts =>
      let mincount := if opt then 0 else 1 in
      match ss, ts with
      | [s], [] => [(IStr s, mincount, 1)]
      | [], [r] =>
          let items := merge_list (flat_map get_items r) in
          if opt then
            match items with
            | [(i, lo, hi)] => if lo <=? 1 then [(i, 0, hi)] else [(ISet ss ts, mincount, 1)]
            | _ => [(ISet ss ts, mincount, 1)]
            end
          else items
      | _, _ => [(ISet ss ts, mincount, 1)]
      end
  end.
Definition merge_items (r : tuple) : list citem := merge_list (flat_map get_items r).

(** Decimal numbers, as [format] writes them. *)
Fixpoint digits (fuel n : nat) : str :=
  match fuel with
  | 0 => []
  | S fuel => if n <? 10 then [48 + n] else digits fuel (n / 10) ++ [48 + n mod 10]
  end.
Definition dec (n : nat) : str := digits (S n) n.

(** parce/regex.py:431-439: the qualifier. *)
Definition qualifier (lo hi : nat) : str :=
  if (lo =? 1) && (hi =? 1) then []
  else if (lo =? 0) && (hi =? 1) then [63]
  else if lo =? hi then 123 :: dec hi ++ [125]
  else 123 :: (if lo =? 0 then [] else dec lo) ++ 44 :: (if hi =? 0 then [] else dec hi) ++ [125].

(** [sorted] on strings. *)
Fixpoint str_leb (a b : str) : bool :=
  match a, b with
  | [], _ => true
  | _, [] => false
  | x :: a, y :: b => if x =? y then str_leb a b else x <? y
  end.
Fixpoint ins_str (s : str) (l : list str) : list str :=
  match l with [] => [s] | t :: l' => if str_leb s t then s :: l else t :: ins_str s l' end.
Definition sort_strs (l : list str) : list str := fold_right ins_str [] l.

Fixpoint join (sep : str) (l : list str) : str :=
  match l with [] => [] | [s] => s | s :: l => s ++ sep ++ join sep l end.

(** parce/regex.py:440-472: the regular expression of one item.  [build] is [build_regexp] for the tuples inside it, [order] the order in
    which the members of a set come; [single] is [len(items) == 1]. *)
Section Build.
Variable order : list tuple -> list tuple.

Definition is_char (s : str) : bool := length s =? 1.
Definition item_regexp (build : tuple -> option str) (single : bool) (c : citem) : option str :=
  let '(i, lo, hi) := c in
  let q := qualifier lo hi in
  let wrap := fun (enclose : bool) (rx : str) => if enclose then [40; 63; 58] ++ rx ++ [41] else rx in
  match i with
  | IStr s =>
      let rx := re_escape s in
      let enclose := (1 <? length s) && negb (length q =? 0) in
      if (length rx =? 1) && (lo =? 1) && (hi =? 2)
      then Some (wrap enclose (rx ++ rx) ++ [63])
      else Some (wrap enclose rx ++ q)
  | ISet ss ts =>
      let chars := filter is_char ss in
      let strings := filter (fun s => negb (is_char s)) ss in
      let group1 := match chars with
                    | [] => []
                    | [c] => [re_escape c]
                    | _ => [91 :: make_charclass (concat chars) ++ [93]]
                    end in
      let group2 := map re_escape (sort_strs strings) in
      match fold_right (fun t r => match build t, r with Some s, Some l => Some (s :: l) | _, _ => None end) (Some []) (order ts) with
      | None => None
      | Some group3 =>
          match group1, strings, ts with
          | [rx], [], [] => Some (rx ++ q)
          | _, _, _ => Some (wrap (negb single || negb (length q =? 0)) (join [124] (group1 ++ group2 ++ group3)) ++ q)
          end
      end
  end.

(** parce/regex.py:341-473 [build_regexp].  [fuel] bounds the depth. *)
Fixpoint build_regexp (fuel : nat) (r : tuple) : option str :=
  match fuel with
  | 0 => None
  | S fuel =>
      let items := merge_items r in
      fold_right (fun c rest => match item_regexp (build_regexp fuel) (length items =? 1) c, rest with
                                | Some s, Some t => Some (s ++ t)
                                | _, _ => None
                                end) (Some []) items
  end.

(** The depth of a tuple. *)
Fixpoint part_size (p : part) : nat :=
  match p with
  | PStr _ => 1
  | PSet _ _ ts => S (list_sum (map (fun u => list_sum (map part_size u)) ts))
  end.
Definition tup_size (r : tuple) : nat := list_sum (map part_size r).

(** parce/regex.py:31-48 [words2regexp]. *)
Definition words2regexp (words : list str) : option str :=
  let '(words, suffix) := common_suffix words in
  match trie_tuple (make_trie words false) with
  | None => None
  | Some r => let r := match suffix with [] => r | _ => r ++ [PStr suffix] end in
              build_regexp (S (tup_size r)) r
  end.

(** parce/rule.py:330-349 [words] *)
Definition rule_words (words : list str) (prefix suffix : str) : option str :=
  match words2regexp words with
  | None => None
  | Some expr => match prefix, suffix with
                 | [], [] => Some expr
                 | _, _ => Some (prefix ++ [40; 63; 58] ++ expr ++ [41] ++ suffix)
                 end
  end.
End Build.
