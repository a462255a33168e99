(** What searching the registry should give. *)
From Verif Require Import Base RegistryModel.
From Coq Require Import Permutation Sorted.

(** A fully qualified name: module, class and lexicon name, the latter two without dots. *)
Definition qualified (q m c r : str) : Prop := q = m ++ [46] ++ c ++ [46] ++ r /\ ~ In 46 c /\ ~ In 46 r.
Definition is_qualified (q : str) : Prop := exists m c r, qualified q m c r.

(** How a name can match an entry, the best way first. *)
Inductive how := ByName | ByAlias | ByCase | ByClass.
Definition rank (h : how) : nat := match h with ByName => 0 | ByAlias => 1 | ByCase => 2 | ByClass => 3 end.
Definition matches (lower : str -> str) (name : str) (h : how) (x : str * entry) : Prop :=
  match h with
  | ByName => e_name (snd x) = name
  | ByAlias => In name (e_aliases (snd x))
  | ByCase => lower (e_name (snd x)) = lower name \/ exists a, In a (e_aliases (snd x)) /\ lower a = lower name
  | ByClass => exists m c r, qualified (fst x) m c r /\ lower c = lower name
  end.

(** The weight of an entry for a file name, a mime type and contents. *)
Definition heaviest (f : str -> Prop) (l : list (str * nat)) (w : nat) : Prop :=
  (w = 0 \/ exists p, In (p, w) l /\ f p) /\ forall p x, In (p, x) l -> f p -> x <= w.
Inductive adds_up (f : str -> Prop) : list (str * nat) -> nat -> Prop :=
| adds_nil : adds_up f [] 0
| adds_yes p w l n : f p -> adds_up f l n -> adds_up f ((p, w) :: l) (w + n)
| adds_no p w l n : ~ f p -> adds_up f l n -> adds_up f ((p, w) :: l) n.

(** A list sorted on weight, the heaviest first, keeping the order of the given list where weights are the same. *)
Definition sorted_on {A} (w : A -> nat) (given result : list A) : Prop :=
  Permutation given result /\ StronglySorted (fun a b => w b <= w a) result
  /\ forall n, filter (fun a => w a =? n) result = filter (fun a => w a =? n) given.

(** An entry made of arguments [e] and the entry [t] it inherits from. *)
Definition own_or (x y z : str) : Prop := (x <> [] -> z = x) /\ (x = [] -> z = y).
Definition inherits (t e m : entry) : Prop :=
  own_or (e_name e) (e_name t) (e_name m) /\ own_or (e_desc e) (e_desc t) (e_desc m) /\ own_or (e_section e) (e_section t) (e_section m)
  /\ (e_author e = [] -> e_author m = e_author t)
  /\ (e_author e <> [] -> e_author t = [] \/ e_author t = e_author e -> e_author m = e_author e)
  /\ (e_author e <> [] -> e_author t <> [] -> e_author t <> e_author e -> e_author m = e_author t ++ [32; 43; 32] ++ e_author e)
  /\ e_aliases m = e_aliases t ++ e_aliases e /\ e_filenames m = e_filenames t ++ e_filenames e
  /\ e_mimetypes m = e_mimetypes t ++ e_mimetypes e /\ e_guesses m = e_guesses t ++ e_guesses e.
