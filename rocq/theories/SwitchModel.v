(** Switches (parce/util.py) as attributes of a class, and looking for an encoding in a text (parce/docio.py). *)
From Verif Require Import Base.
From Coq Require Import ZArith.

(** ** util.py:398-460 [Switch], in a class *)
Section Switch.
(** The instances of the class; they are keys of a dictionary, and [ieq] is their [==] (with equal hashes). *)
Variable I : Type.
Variable ieq : I -> I -> bool.
(** The dictionary of the switch in the class, and the values of the switches it has made. *)
Record sws := Sws { w_dict : list (I * nat); w_vals : list Z }.
Definition w_empty : sws := Sws [] [].
Definition w_find (s : sws) (i : I) : option nat := option_map snd (find (fun p => ieq (fst p) i) (w_dict s)).
(** 451-460 [__get__], with an instance *)
Definition w_get (s : sws) (i : I) : sws * nat :=
  match w_find s i with
  | Some k => (s, k)
  | None => (Sws ((i, length (w_vals s)) :: w_dict s) (w_vals s ++ [0%Z]), length (w_vals s))
  end.
Fixpoint z_add (l : list Z) (k : nat) (d : Z) : list Z := match l, k with [], _ => [] | z :: l, 0 => (z + d)%Z :: l | z :: l, S k => z :: z_add l k d end.
(** 442-446 [__enter__] and [__exit__] *)
Definition w_add (s : sws) (k : nat) (d : Z) : sws := Sws (w_dict s) (z_add (w_vals s) k d).
(** 448-449 [__bool__] *)
Definition w_on (s : sws) (k : nat) : bool := match nth_error (w_vals s) k with Some z => negb (z =? 0)%Z | None => false end.
(** What a program does: a [with] block with the switch of an instance, looking whether the switch of an instance is on, raising an exception,
    catching exceptions, and asking the class for the switch: there is no weak reference to None, the dictionary is replaced, and a TypeError is raised. *)
Inductive act := With (i : I) (body : list act) | Test (i : I) | Raise | Try (body : list act) | OfClass.
Fixpoint w_exec (x : act) (s : sws) : sws * list bool * bool :=
  let all := fix all (l : list act) (s : sws) : sws * list bool * bool :=
    match l with
    | [] => (s, [], false)
    | x :: l => let '(s1, o1, r1) := w_exec x s in if r1 then (s1, o1, true) else let '(s2, o2, r2) := all l s1 in (s2, o1 ++ o2, r2)
    end in
  match x with
  | With i body => let (s1, k) := w_get s i in let '(s2, o, r) := all body (w_add s1 k 1) in (w_add s2 k (-1), o, r)
  | Test i => let (s1, k) := w_get s i in (s1, [w_on s1 k], false)
  | Raise => (s, [], true)
  | Try body => let '(s1, o, _) := all body s in (s1, o, false)
  | OfClass => (Sws [] (w_vals s), [], true)
  end.
Fixpoint w_all (l : list act) (s : sws) : sws * list bool * bool :=
  match l with
  | [] => (s, [], false)
  | x :: l => let '(s1, o1, r1) := w_exec x s in if r1 then (s1, o1, true) else let '(s2, o2, r2) := w_all l s1 in (s2, o1 ++ o2, r2)
  end.
End Switch.
Arguments With {I}. Arguments Test {I}. Arguments Raise {I}. Arguments Try {I}. Arguments OfClass {I}. Arguments w_empty {I}. Arguments Sws {I}. Arguments w_dict {I}. Arguments w_vals {I}.

(** ** docio.py:195-204 [IO.find_encoding] *)
Section Search.
(** [\w] from 128 on *)
Variable uword : nat -> bool.
Definition e_word (c : nat) : bool := if c <? 128 then ((48 <=? c) && (c <=? 57)) || ((65 <=? c) && (c <=? 90)) || ((97 <=? c) && (c <=? 122)) || (c =? 95) else uword c.
Definition e_name (c : nat) : bool := e_word c || (c =? 45).
Definition e_blank (c : nat) : bool := (c =? 9) || (c =? 32).
Fixpoint e_span (f : nat -> bool) (s : str) : nat := match s with [] => 0 | c :: s => if f c then S (e_span f s) else 0 end.
Definition e_skip (s : str) : str := skipn (e_span e_blank s) s.
Definition e_value (s : str) : option str := match e_span e_name s with 0 => None | n => Some (firstn n s) end.
(** The pattern, without the boundary: the word, blanks, and a colon and blanks, or an equal sign, blanks and a quote; then the value.
    The repetitions that are as short as possible stop where they would have stopped otherwise: what follows is not a blank. *)
Definition e_rest (s : str) : option str :=
  match e_skip s with
  | c :: r => if c =? 58 then e_value (e_skip r)
              else if c =? 61 then match e_skip r with q :: r => if q =? 34 then e_value r else None | [] => None end
              else None
  | [] => None
  end.
Definition e_here (prev : option nat) (s : str) : option str :=
  if match prev with Some c => e_word c | None => false end then None
  else if str_eqb (firstn 8 s) [101; 110; 99; 111; 100; 105; 110; 103] then e_rest (skipn 8 s) else None.
(** [re.search] *)
Fixpoint e_search (prev : option nat) (s : str) : option str :=
  match e_here prev s with
  | Some v => Some v
  | None => match s with [] => None | c :: s => e_search (Some c) s end
  end.
Definition io_find_encoding (text : str) : option str := e_search None text.
End Search.
