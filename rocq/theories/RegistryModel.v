(** Model of parce/registry.py: the registry of language definitions. *)
From Verif Require Import Base.

(** registry.py:51-63 [Entry]. A weight is a number from 0 to 1 in the code; here any natural number, in some small unit,
    so sums are exact. *)
Record entry := Entry {
  e_name : str; e_desc : str; e_section : str; e_author : str; e_aliases : list str;
  e_filenames : list (str * nat); e_mimetypes : list (str * nat); e_guesses : list (str * nat) }.

(** registry.py:90 [Registry(dict)]: a dictionary in insertion order. *)
Definition registry := list (str * entry).

(** Python's [d[key] = value], [d.pop(key)] and [d[key]] *)
Fixpoint dict_set {V} (key : str) (v : V) (d : list (str * V)) : list (str * V) :=
  match d with
  | [] => [(key, v)]
  | (k, x) :: d => if str_eqb k key then (k, v) :: d else (k, x) :: dict_set key v d
  end.
Fixpoint dict_get {V} (key : str) (d : list (str * V)) : option V :=
  match d with [] => None | (k, x) :: d => if str_eqb k key then Some x else dict_get key d end.
Fixpoint dict_del {V} (key : str) (d : list (str * V)) : list (str * V) :=
  match d with [] => [] | (k, x) :: d => if str_eqb k key then d else (k, x) :: dict_del key d end.

(** Whether a string is true. *)
Definition filled (s : str) : bool := match s with [] => false | _ => true end.
Definition or_ (s t : str) : str := if filled s then s else t.

(** The exceptions of [add]. *)
Inductive add_result := Added | KeyError | ValueError.

(** registry.py:114-185 [add]; the arguments are given as an entry, [name = None] and [desc = None] are empty strings. *)
Definition merge (template e : entry) : entry :=
  Entry (or_ (e_name e) (e_name template)) (or_ (e_desc e) (e_desc template)) (or_ (e_section e) (e_section template))
    (if filled (e_author e)
     then if filled (e_author template) && negb (str_eqb (e_author template) (e_author e))
          then e_author template ++ [32; 43; 32] ++ e_author e else e_author e
     else e_author template)
    (e_aliases template ++ e_aliases e) (e_filenames template ++ e_filenames e)
    (e_mimetypes template ++ e_mimetypes e) (e_guesses template ++ e_guesses e).
Definition checked (reg : registry) (lexicon_name : str) (e : entry) : registry * add_result :=
  if filled (e_name e) then if filled (e_desc e) then (dict_set lexicon_name e reg, Added) else (reg, ValueError) else (reg, ValueError).
Definition add (reg : registry) (lexicon_name : str) (e : entry) (inherit : option str) : registry * add_result :=
  match inherit with
  | Some (c :: r) => match dict_get (c :: r) reg with
                     | None => (reg, KeyError)
                     | Some template => checked (dict_del (c :: r) reg) lexicon_name (merge template e)
                     end
  | _ => checked reg lexicon_name e
  end.

(** registry.py:309-314 [by_section] *)
Fixpoint section_add (q : str) (e : entry) (d : list (str * registry)) : list (str * registry) :=
  match d with
  | [] => [(e_section e, [(q, e)])]
  | (s, r) :: d => if str_eqb s (e_section e) then (s, dict_set q e r) :: d else (s, r) :: section_add q e d
  end.
Definition by_section (reg : registry) : list (str * registry) := fold_left (fun d x => section_add (fst x) (snd x) d) reg [].

Section Search.
(** Python's [str.lower], [fnmatch.fnmatch(filename, pattern)], [re.search(regex, contents)], and the lexicon with a module
    name, a class name and an attribute name; None if importing it fails. *)
Variable lower : str -> str.
Variable fnmatch : str -> str -> bool.
Variable search : str -> str -> bool.
Variable lex : Type.
Variable import : str -> str -> str -> option lex.

(** [s.rsplit(".", 1)] as a pair, if there is a dot *)
Fixpoint rcut (s : str) : option (str * str) :=
  match s with
  | [] => None
  | c :: s => match rcut s with
              | Some (a, b) => Some (c :: a, b)
              | None => if c =? 46 then Some ([], s) else None
              end
  end.
(** [s.rsplit(".", 2)] *)
Definition rsplit2 (s : str) : list str :=
  match rcut s with
  | None => [s]
  | Some (a, b) => match rcut a with None => [a; b] | Some (c, d) => [c; d; b] end
  end.

(** registry.py:229-253 [qualname]; the outer None is the IndexError of [rsplit(".", 2)[1]]. *)
Fixpoint qualname_loop (name : str) (reg : registry) (aliases nocases classes : list str) : option (option str) :=
  match reg with
  | [] => Some (hd_error (aliases ++ nocases ++ classes))
  | (qualname, e) :: reg =>
      if str_eqb name (e_name e) then Some (Some qualname)
      else
        let aliases := if existsb (str_eqb name) (e_aliases e) then aliases ++ [qualname] else aliases in
        let nocases := if str_eqb (lower name) (lower (e_name e)) || existsb (fun a => str_eqb (lower a) (lower name)) (e_aliases e)
                       then nocases ++ [qualname] else nocases in
        match nth_error (rsplit2 qualname) 1 with
        | None => None
        | Some cls =>
            let classes := if str_eqb (lower name) (lower cls) then classes ++ [qualname] else classes in
            qualname_loop name reg aliases nocases classes
        end
  end.
Definition qualname (reg : registry) (name : str) : option (option str) := qualname_loop name reg [] [] [].

(** [weights[name] += weight], [if weight:], on a [defaultdict(int)] *)
Fixpoint weight_add (name : str) (w : nat) (d : list (str * nat)) : list (str * nat) :=
  match d with
  | [] => [(name, w)]
  | (n, x) :: d => if str_eqb n name then (n, x + w) :: d else (n, x) :: weight_add name w d
  end.
Definition add_weight (d : list (str * nat)) (name : str) (w : nat) : list (str * nat) :=
  if w =? 0 then d else weight_add name w d.
Definition weight_of (d : list (str * nat)) (name : str) : nat := match dict_get name d with Some w => w | None => 0 end.

(** [max((w for x, w in l if f(x)), default=0)], [sum(w for x, w in l if f(x))] *)
Definition max_weight (f : str -> bool) (l : list (str * nat)) : nat := list_max (map snd (filter (fun x => f (fst x)) l)).
Definition sum_weight (f : str -> bool) (l : list (str * nat)) : nat := list_sum (map snd (filter (fun x => f (fst x)) l)).

(** [sorted(names, key=w, reverse=True)], which keeps the order of names with the same weight. *)
Fixpoint insert_desc (w : str -> nat) (x : str) (l : list str) : list str :=
  match l with
  | [] => [x]
  | y :: l' => if w y <=? w x then x :: l else y :: insert_desc w x l'
  end.
Definition sort_desc (w : str -> nat) (l : list str) : list str := fold_right (insert_desc w) [] l.

Definition entry_of (reg : registry) (name : str) : entry :=
  match dict_get name reg with Some e => e | None => Entry [] [] [] [] [] [] [] [] end.

(** registry.py:187-227 [suggest]; None and the empty string are the same for the three arguments. *)
Definition suggest (reg : registry) (filename mimetype contents : str) : list str :=
  let weights := [] in
  let weights := if filled filename then
      fold_left (fun d name => add_weight d name (max_weight (fnmatch filename) (e_filenames (entry_of reg name)))) (map fst reg) weights
    else weights in
  let weights := if filled mimetype then
      fold_left (fun d name => add_weight d name (max_weight (fun m => str_eqb m mimetype) (e_mimetypes (entry_of reg name)))) (map fst reg) weights
    else weights in
  let guess names weights :=
      let weights := if filled contents then
          let contents := firstn 5000 contents in
          fold_left (fun d name => add_weight d name (sum_weight (fun r => search r contents) (e_guesses (entry_of reg name)))) names weights
        else weights in
      sort_desc (weight_of weights) (map fst weights) in
  match sort_desc (weight_of weights) (map fst weights) with
  | [] => guess (map fst reg) weights
  | [n] => [n]
  | n :: m :: r => if weight_of weights m <? weight_of weights n then n :: m :: r else guess (n :: m :: r) weights
  end.

(** registry.py:255-266 [lexicon]; None: an exception. *)
Definition lexicon (q : str) : option lex :=
  match rsplit2 q with [m; c; r] => import m c r | _ => None end.

(** registry.py:268-307 [find]: the registry, its fallback, the fallback of that, and so on (a chain that ends). The outer
    None is an exception. *)
Fixpoint find_lexicon (chain : list registry) (name filename mimetype contents : str) : option (option lex) :=
  match chain with
  | [] => Some None
  | [] :: _ => Some None      (* [while self:] *)
  | reg :: chain =>
      let found := if filled name then match qualname reg name with
                                       | None => None
                                       | Some (Some q) => Some (if filled q then Some q else None)
                                       | Some None => Some None
                                       end
                   else Some (hd_error (suggest reg filename mimetype contents)) in
      match found with
      | None => None
      | Some (Some q) => option_map Some (lexicon q)
      | Some None => find_lexicon chain name filename mimetype contents
      end
  end.
End Search.
