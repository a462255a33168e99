(** What replacing should do. *)
From Verif Require Import Base MutableModel MutableSpec.
From Coq Require Import ZArith.

(** [s] starts with [p]. *)
Definition starts_with (p s : str) : bool := str_eqb (firstn (length p) s) p.

(** [s.replace(old, new, count)] in Python, for non-empty [old]: read from left to right, and replace where [old]
    is found, at most [count] times ([None]: no limit). [skip] characters belong to an occurrence. *)
Fixpoint str_replace (old new : str) (count : option nat) (skip : nat) (s : str) : str :=
  match s with
  | [] => []
  | c :: s' =>
      match skip, count with
      | S skip, _ => str_replace old new count skip s'
      | 0, Some 0 => c :: str_replace old new count 0 s'
      | 0, _ => if starts_with old s
                then new ++ str_replace old new (option_map pred count) (length old - 1) s'
                else c :: str_replace old new count 0 s'
      end
  end.

(** A limit of zero or less is no limit. *)
Definition limit (count : Z) : option nat := if (count <=? 0)%Z then None else Some (Z.to_nat count).
(** The first so many matches. *)
Definition limited {A} (count : Z) (l : list A) : list A :=
  match limit count with None => l | Some n => firstn n l end.

(** [re.sub]: each match is replaced by its replacement, the text between them is copied. *)
Fixpoint substituted (s : str) (from_ : nat) (matches : list change) : str :=
  match matches with
  | [] => skipn from_ s
  | m :: ms => slice s from_ (g_start m) ++ g_text m ++ substituted s (g_end m) ms
  end.

(** [text] with the piece from [a] to [b] replaced by [t]. *)
Definition put (text : str) (a b : nat) (t : str) : str := firstn a text ++ t ++ skipn b text.
