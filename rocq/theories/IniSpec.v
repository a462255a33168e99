(** What an INI text is, independent of the code. *)
From Verif Require Import Base.

Definition blank (c : nat) : Prop := c = 32 \/ c = 9.
Definition blanks (s : str) : Prop := Forall blank s.
(** The characters that have a meaning in keys and values: open bracket, backslash, newline, semicolon, equals, hash and colon. *)
Definition special : list nat := [91; 92; 10; 59; 61; 35; 58].
(** The characters that stand for themselves after a backslash. *)
Definition escapable : list nat := [10; 92; 39; 34; 59; 35; 61; 58].

Inductive hex : nat -> nat -> Prop :=        (* character, its value *)
| hex_0_9 n : n < 10 -> hex (48 + n) n
| hex_a_f n : n < 6 -> hex (97 + n) (10 + n)
| hex_A_F n : n < 6 -> hex (65 + n) (10 + n).

(** [coded t s]: the text [t] stands for the string [s]. *)
Inductive coded : str -> str -> Prop :=
| co_nil : coded [] []
| co_char c t s : ~ In c special -> coded t s -> coded (c :: t) (c :: s)
| co_escape c t s : In c escapable -> coded t s -> coded (92 :: c :: t) (c :: s)
| co_hex x a b c d i j k l t s : x = 120 \/ x = 88 -> hex a i -> hex b j -> hex c k -> hex d l -> coded t s ->
    coded (92 :: x :: a :: b :: c :: d :: t) (((i * 16 + j) * 16 + k) * 16 + l :: s).
(** No blanks at the start and the end. *)
Definition tight (s : str) : Prop := (forall c r, s = c :: r -> ~ blank c) /\ (forall r c, s = r ++ [c] -> ~ blank c).
(** With blanks around it. *)
Definition padded (P : str -> Prop) (t : str) : Prop := exists a u b, t = a ++ u ++ b /\ blanks a /\ blanks b /\ tight u /\ P u.
Definition text_for (s t : str) : Prop := padded (fun u => coded u s) t.

(** The lines of a file. *)
Inductive line := Blank | Section (name : str) | Entry (key : str) (value : option str).
Inductive line_body : line -> str -> Prop :=
| lb_blank a : blanks a -> line_body Blank a
| lb_section a n name b : blanks a -> blanks b -> padded (eq name) n -> ~ In 93 name -> ~ In 10 name -> hd_error name <> Some 92 ->
    line_body (Section name) (a ++ 91 :: n ++ 93 :: b)
| lb_entry k t s v : t <> [] -> v <> [] -> text_for k t -> text_for s v -> line_body (Entry k (Some s)) (t ++ 61 :: v)
| lb_absent k t : t <> [] -> text_for k t -> line_body (Entry k None) (t ++ [61]).
(** [com]: whether there can be comments. *)
Definition line_text (com : bool) (l : line) (t : str) : Prop :=
  exists body tail, t = body ++ tail /\ line_body l body /\
    (tail = [] \/ com = true /\ exists c r, tail = c :: r /\ (c = 59 \/ c = 35) /\ ~ In 10 r).
Inductive ini_text (com : bool) : list line -> str -> Prop :=
| it_nil : ini_text com [] []
| it_last l t : line_text com l t -> ini_text com [l] t
| it_line l t ls u : line_text com l t -> ini_text com ls u -> ini_text com (l :: ls) (t ++ 10 :: u).

(** ** The value of a file: dictionaries as lists, in the order in which the keys were added first. *)

Fixpoint entry {K V} (dec : forall a b : K, {a = b} + {a <> b}) (k : K) (v : V) (d : list (K * V)) : list (K * V) :=
  match d with
  | [] => [(k, v)]
  | (k', v') :: d => if dec k k' then (k, v) :: d else (k', v') :: entry dec k v d
  end.
Fixpoint lookup {K V} (dec : forall a b : K, {a = b} + {a <> b}) (k : K) (d : list (K * V)) : option V :=
  match d with [] => None | (k', v) :: d => if dec k k' then Some v else lookup dec k d end.
Definition str_dec : forall a b : str, {a = b} + {a <> b} := list_eq_dec Nat.eq_dec.
Definition name_dec : forall a b : option str, {a = b} + {a <> b}.
Proof. decide equality. apply str_dec. Defined.

(** The current section, and all sections.  A section line starts an empty section, also if there was one with that name. *)
Definition read_line (x : option str * list (option str * list (str * option str))) (l : line) :=
  let '(cur, r) := x in
  match l with
  | Blank => (cur, r)
  | Section n => (Some n, entry name_dec (Some n) [] r)
  | Entry k v => (cur, entry name_dec cur (entry str_dec k v (match lookup name_dec cur r with Some d => d | None => [] end)) r)
  end.
(** The entries before the first section are in the section None, if there are any. *)
Definition ini_value (ls : list line) : list (option str * list (str * option str)) := snd (fold_left read_line ls (None, [])).

(** A text for sections with names and strings. *)
Definition hex_char (n : nat) : nat := if n <? 10 then 48 + n else 87 + n.
Definition write_hex (c : nat) : str := [92; 120; hex_char (c / 4096); hex_char (c / 256 mod 16); hex_char (c / 16 mod 16); hex_char (c mod 16)].
Definition write_char (c : nat) : str :=
  if (c =? 91) || (c =? 32) || (c =? 9) then write_hex c
  else if existsb (Nat.eqb c) escapable then [92; c] else [c].
Definition write_str (s : str) : str := concat (map write_char s).
Definition write_entry (e : str * option str) : str :=
  write_str (fst e) ++ 32 :: 61 :: match snd e with Some v => 32 :: write_str v | None => [] end ++ [10].
Definition write_entries (es : list (str * option str)) : str := concat (map write_entry es).
(** The entries before the first section, and the sections. *)
Definition write_ini (top : list (str * option str)) (ss : list (str * list (str * option str))) : str :=
  write_entries top ++ concat (map (fun s => 91 :: fst s ++ 93 :: 10 :: write_entries (snd s)) ss).
