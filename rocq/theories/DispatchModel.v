(** Model of [Dispatcher] in parce/util.py. Classes, names, keys and functions are numbers. *)
From Verif Require Import Base.

(** A dict, in order of insertion. *)
Fixpoint dict_set {V} (d : list (nat * V)) (k : nat) (v : V) : list (nat * V) :=
  match d with
  | [] => [(k, v)]
  | (k', v') :: d => if k' =? k then (k, v) :: d else (k', v') :: dict_set d k v
  end.
Definition dict_get {V} (d : list (nat * V)) (k : nat) : option V :=
  match find (fun x => fst x =? k) d with Some (_, v) => Some v | None => None end.
Definition dict_update {V} (d e : list (nat * V)) : list (nat * V) := fold_left (fun d x => dict_set d (fst x) (snd x)) e d.

(** What is in the dictionary of a class: a dispatcher, with its registered keys and function names, and its default
    function; or a function. *)
Inductive attr := Disp (table : list (nat * nat)) (default : option nat) | Func (f : nat).

(** util.py:122-127 [__call__] of a Dispatcher as a decorator: registers the keys for the name of the function. *)
Definition register (table : list (nat * nat)) (keys : list nat) (name : nat) : list (nat * nat) :=
  fold_left (fun t a => dict_set t a name) keys table.

Section Classes.
(** The dictionaries of the classes, and [owner.mro()] (Python's order of the class and its bases). *)
Variable class_dict : nat -> nat -> option attr.
Variable mro : nat -> list nat.

(** [getattr(owner, name)] *)
Fixpoint getattr_in (cs : list nat) (name : nat) : option attr :=
  match cs with
  | [] => None
  | c :: cs => match class_dict c name with Some a => Some a | None => getattr_in cs name end
  end.
Definition getattr (owner name : nat) : option attr := getattr_in (mro owner) name.

(** util.py:129-150 [__get__]: the table that is computed for the class [owner]; [name] is the name of the dispatcher. None:
    a function that is registered is not an attribute of the class (an AttributeError). That the table is computed only once
    for a class is not modelled (so changing a class later is not covered). *)
Definition dispatchers (owner name : nat) : list (list (nat * nat)) :=
  flat_map (fun c => match class_dict c name with Some (Disp t _) => [t] | _ => [] end) (mro owner).
Definition names_table (owner name : nat) : list (nat * nat) := fold_left dict_update (rev (dispatchers owner name)) [].
Fixpoint functions (owner : nat) (t : list (nat * nat)) : option (list (nat * attr)) :=
  match t with
  | [] => Some []
  | (a, n) :: t => match getattr owner n, functions owner t with
                   | Some f, Some l => Some ((a, f) :: l)
                   | _, _ => None
                   end
  end.
Definition get_table (owner name : nat) : option (list (nat * attr)) := functions owner (names_table owner name).

(** util.py:170-178 [__call__] of the dispatcher of an instance of [owner]. [Some None]: nothing is called. The default
    function is that of the dispatcher that is found as the attribute (util.py:180-185). *)
Definition dispatch (owner name key : nat) : option (option attr) :=
  match get_table owner name, getattr owner name with
  | Some t, Some (Disp _ default) =>
      match dict_get t key with
      | Some f => Some (Some f)
      | None => Some (option_map Func default)
      end
  | _, _ => None
  end.
End Classes.
