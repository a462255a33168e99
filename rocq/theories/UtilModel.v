(** Model of some functions of parce/util.py: fix_boundaries, merge_adjacent, get_bom_encoding, split_list, unroll. *)
From Verif Require Import Base.

(** An item of a stream: the first two values of a tuple, and the others. *)
Record item (R : Type) := Item { i_pos : nat; i_end : nat; i_rest : R }.
Arguments Item {R}. Arguments i_pos {R}. Arguments i_end {R}. Arguments i_rest {R}.

(** util.py:646-671 [fix_boundaries]. The outer [for] runs at most once, as the inner one exhausts the stream.
    [type(i)((..))] is building a tuple again (items that are named tuples are not modelled). *)
Fixpoint fix_last {R} (i : item R) (stream : list (item R)) (end_ : option nat) : list (item R) :=
  match stream with
  | j :: stream => i :: fix_last j stream end_
  | [] => match end_ with
          | Some e => if e <? i_end i then [Item (i_pos i) e (i_rest i)] else [i]
          | None => [i]
          end
  end.
Definition fix_boundaries {R} (stream : list (item R)) (start : nat) (end_ : option nat) : list (item R) :=
  match end_, start with
  | None, 0 => stream
  | _, _ => match stream with
            | [] => []
            | i :: stream => let i := if i_pos i <? start then Item start (i_end i) (i_rest i) else i in fix_last i stream end_
            end
  end.

(** util.py:674-692 [merge_adjacent]. [eqb] is the comparison of the other values of the tuples. The factory makes an
    item of the values given as arguments (it should be e.g. a named tuple; the default factory can't be called this way). *)
Fixpoint merge_from {R} (eqb : R -> R -> bool) (pos end_ : nat) (rest : R) (stream : list (item R)) : list (item R) :=
  match stream with
  | [] => [Item pos end_ rest]
  | Item npos nend nrest :: stream =>
      if negb (eqb nrest rest) || (end_ <? npos)
      then Item pos end_ rest :: merge_from eqb npos nend nrest stream
      else merge_from eqb pos nend rest stream
  end.
Definition merge_adjacent {R} (eqb : R -> R -> bool) (stream : list (item R)) : list (item R) :=
  match stream with
  | [] => []
  | Item pos end_ rest :: stream => merge_from eqb pos end_ rest stream
  end.

(** util.py:716-734 [get_bom_encoding]. Bytes are numbers, the marks are those of the codecs module. *)
Inductive encoding := UTF8 | UTF16LE | UTF16BE | UTF32LE | UTF32BE.
Definition bom (e : encoding) : list nat :=
  match e with
  | UTF8 => [239; 187; 191]
  | UTF16LE => [255; 254]
  | UTF16BE => [254; 255]
  | UTF32LE => [255; 254; 0; 0]
  | UTF32BE => [0; 0; 254; 255]
  end.
Fixpoint startswith (data b : list nat) {struct b} : bool :=
  match b, data with
  | [], _ => true
  | x :: b, y :: data => (x =? y) && startswith data b
  | _ :: _, [] => false
  end.
Definition get_bom_encoding (data : list nat) : option encoding * list nat :=
  match find (fun e => startswith data (bom e)) [UTF8; UTF16LE; UTF16BE; UTF32LE; UTF32BE] with
  | Some e => (Some e, from data (length (bom e)))
  | None => (None, data)
  end.

(** util.py:737-750 [split_list]. [l.index(separator, i)]; None is a ValueError. *)
Fixpoint index {A} (eqb : A -> A -> bool) (l : list A) (x : A) : option nat :=
  match l with
  | [] => None
  | y :: l => if eqb y x then Some 0 else option_map S (index eqb l x)
  end.
Definition index_from {A} (eqb : A -> A -> bool) (l : list A) (x : A) (i : nat) : option nat :=
  option_map (fun j => i + j) (index eqb (from l i) x).
Fixpoint split_from {A} (eqb : A -> A -> bool) (fuel : nat) (l : list A) (sep : A) (i : nat) : option (list (list A)) :=
  match fuel with
  | 0 => None
  | S fuel => match index_from eqb l sep i with
              | Some j => option_map (cons (slice l i j)) (split_from eqb fuel l sep (j + 1))
              | None => Some [from l i]
              end
  end.
Definition split_list {A} (eqb : A -> A -> bool) (l : list A) (sep : A) : option (list (list A)) := split_from eqb (S (length l)) l sep 0.

(** util.py:753-777 [unroll]. An object is a tuple or list, or something else. *)
Inductive obj (A : Type) := Atom (a : A) | Seq (l : list (obj A)).
Arguments Atom {A}. Arguments Seq {A}.
(** [gen] is the rest of the current iterator, [stack] those to continue with. *)
Fixpoint unroll_loop {A} (fuel : nat) (gen : list (obj A)) (stack : list (list (obj A))) : option (list A) :=
  match fuel with
  | 0 => None
  | S fuel => match gen with
              | Atom a :: gen => option_map (cons a) (unroll_loop fuel gen stack)
              | Seq l :: gen => unroll_loop fuel l (gen :: stack)
              | [] => match stack with
                      | gen :: stack => unroll_loop fuel gen stack
                      | [] => Some []
                      end
              end
  end.
Definition unroll {A} (fuel : nat) (o : obj A) : option (list A) :=
  match o with
  | Seq l => unroll_loop fuel l []
  | Atom a => Some [a]
  end.
