(** Numerals in words: what a text of numerals says. *)
From Verif Require Import Base.
From Coq Require Import ZArith String Ascii.
Open Scope string_scope. Open Scope list_scope. Open Scope nat_scope.

Definition codes (x : string) : str := map nat_of_ascii (list_ascii_of_string x).

(** A numeral: a number below 100, or with a big word (hundred, thousand, million) and what is before and after it, if anything. *)
Inductive big (X : Type) := Plain (x : X) | Times (a b : option X).
Arguments Plain {X}. Arguments Times {X}.
Notation numeral := (big (big (big nat))).
Definition big_value {X} (factor : Z) (v : X -> Z) (x : big X) : Z :=
  match x with
  | Plain x => v x
  | Times a b => (factor * match a with Some x => v x | None => 1 end + match b with Some x => v x | None => 0 end)%Z
  end.
Definition value_100 : big nat -> Z := big_value 100 Z.of_nat.
Definition value_1000 : big (big nat) -> Z := big_value 1000 value_100.
Definition numeral_value : numeral -> Z := big_value 1000000 value_1000.

(** Letters, small or capital; white space and hyphens, which may be between words; and other characters, no letters (the comma, digits ...). *)
Definition letter (p c : nat) : Prop := c = p \/ (97 <= p <= 122 /\ c + 32 = p).
Definition spelled (w t : str) : Prop := Forall2 letter w t.
Definition gap (s : str) : Prop := Forall (fun c => In c [9; 10; 11; 12; 13; 28; 29; 30; 31; 32; 45]) s.
Definition other (c : nat) : Prop := c < 128 /\ ~ In c [9; 10; 11; 12; 13; 28; 29; 30; 31; 32; 45] /\ ~ 65 <= c <= 90 /\ ~ 97 <= c <= 122.
Definition between (s : str) : Prop := Forall (fun c => gap [c] \/ other c) s.

Section Written.
(** How the numbers below 100 are written, and the big words. *)
Variable below_100 : nat -> str -> Prop.
Variables hundred thousand million : str.
(** There may be a gap before a word. *)
Definition after_gap (R : str -> Prop) (s : str) : Prop := exists e t, s = e ++ t /\ gap e /\ R t.
Definition maybe {X} (R : X -> str -> Prop) (o : option X) (s : str) : Prop := match o with None => s = [] | Some x => R x s end.
Definition big_text {X} (R : X -> str -> Prop) (w : str) (x : big X) (s : str) : Prop :=
  match x with
  | Plain x => R x s
  | Times a b => exists sa sw sb, s = sa ++ sw ++ sb /\ maybe R a sa /\ after_gap (spelled w) sw /\ maybe R b sb
  end.
Definition text_100 : big nat -> str -> Prop := big_text (fun n => after_gap (below_100 n)) hundred.
Definition text_1000 : big (big nat) -> str -> Prop := big_text text_100 thousand.
Definition numeral_text : numeral -> str -> Prop := big_text text_1000 million.

(** Numerals in a text: between two numerals is a character that is no letter, space or hyphen. *)
Inductive numerals : list numeral -> str -> Prop :=
| ns_end e : between e -> numerals [] e
| ns_one x xs s e r : numeral_text x s -> between e -> (xs <> [] -> Exists other e) -> numerals xs r -> (xs = [] -> r = []) -> numerals (x :: xs) (s ++ e ++ r).
Definition numerals_text (xs : list numeral) (text : str) : Prop := exists e s, text = e ++ s /\ between e /\ numerals xs s.
End Written.

(** ** English *)

Definition en_small : list string :=
  ["zero"; "one"; "two"; "three"; "four"; "five"; "six"; "seven"; "eight"; "nine"; "ten"; "eleven"; "twelve"; "thirteen"; "fourteen"; "fifteen";
   "sixteen"; "seventeen"; "eighteen"; "nineteen"].
Definition en_tens : list string := ["twenty"; "thirty"; "forty"; "fifty"; "sixty"; "seventy"; "eighty"; "ninety"].
Definition nth_word (n : nat) (l : list string) : str := codes (nth n l "").
(** "seven", "thirty", "thirty-seven", "ThirtySeven" *)
Definition en_below_100 (n : nat) (t : str) : Prop :=
  n < 20 /\ spelled (nth_word n en_small) t
  \/ 20 <= n < 100 /\ exists a b, t = a ++ b /\ spelled (nth_word (n / 10 - 2) en_tens) a
       /\ (n mod 10 = 0 /\ b = [] \/ n mod 10 <> 0 /\ after_gap (spelled (nth_word (n mod 10) en_small)) b).
Definition en_numerals : list numeral -> str -> Prop := numerals_text en_below_100 (codes "hundred") (codes "thousand") (codes "million").

(** The usual numeral for a number. *)
Definition part (n : nat) : option nat := if n =? 0 then None else Some n.
Definition say_1000 (z : nat) : big nat := if z <? 100 then Plain z else Times (Some (z / 100)) (part (z mod 100)).
Definition say_million (z : nat) : big (big nat) :=
  if z <? 1000 then Plain (say_1000 z) else Times (Some (say_1000 (z / 1000))) (option_map say_1000 (part (z mod 1000))).
(** For a number of millions and a rest below a million. *)
Definition say (m z : nat) : numeral := if m =? 0 then Plain (say_million z) else Times (Some (say_million m)) (option_map say_million (part z)).
