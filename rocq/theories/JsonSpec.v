(** What a JSON text is, and the value it stands for (RFC 8259), independent of the code. *)
From Verif Require Import Base JsonModel.
From Coq Require Import ZArith.

(** A number stays as it is written here. *)
Inductive json := JNull | JBool (b : bool) | JNum (literal : str) | JStr (s : str) | JArr (l : list json) | JObj (l : list (str * json)).

Definition ws (s : str) : Prop := Forall (fun c => In c [9; 10; 13; 32]) s.

(** Numbers *)
Definition digit (c : nat) : Prop := 48 <= c <= 57.
Definition digits (s : str) : Prop := s <> [] /\ Forall digit s.
Definition opt_minus (s : str) : Prop := s = [] \/ s = [45].
Definition int_part (s : str) : Prop := digits s /\ (forall t, s = 48 :: t -> t = []).
Definition frac_part (s : str) : Prop := s = [] \/ exists d, s = 46 :: d /\ digits d.
Definition exp_part (s : str) : Prop :=
  s = [] \/ exists e sign d, s = e :: sign ++ d /\ (e = 69 \/ e = 101) /\ (sign = [] \/ sign = [43] \/ sign = [45]) /\ digits d.
Definition number (s : str) : Prop :=
  exists a b c d, s = a ++ b ++ c ++ d /\ opt_minus a /\ int_part b /\ frac_part c /\ exp_part d.

(** Strings *)
Inductive hex : nat -> nat -> Prop :=        (* character, its value *)
| hex_0_9 n : n < 10 -> hex (48 + n) n
| hex_a_f n : n < 6 -> hex (97 + n) (10 + n)
| hex_A_F n : n < 6 -> hex (65 + n) (10 + n).
(** A backslash, [u] and four digits. *)
Definition u_escape (t : str) (n : nat) : Prop :=
  exists a b c d x y z w, t = [92; 117; a; b; c; d] /\ hex a x /\ hex b y /\ hex c z /\ hex d w /\ n = ((x * 16 + y) * 16 + z) * 16 + w.
Definition short_escapes : list (nat * nat) := [(34, 34); (92, 92); (47, 47); (98, 8); (102, 12); (110, 10); (114, 13); (116, 9)].

(** Surrogates: a character outside the Basic Multilingual Plane is two of them. *)
Definition surrogate (n : nat) : Prop := (0xD800 <= Z.of_nat n <= 0xDFFF)%Z.
Definition is_pair (n m c : nat) : Prop :=
  (0xD800 <= Z.of_nat n <= 0xDBFF /\ 0xDC00 <= Z.of_nat m <= 0xDFFF /\
   Z.of_nat c = 0x10000 + (Z.of_nat n - 0xD800) * 0x400 + (Z.of_nat m - 0xDC00))%Z.

(** The text between the quotes, and the string.  A character outside the Basic Multilingual Plane can be written as a pair of escapes, if
    [pairs] is true. *)
Inductive string_text (pairs : bool) : str -> str -> Prop :=
| st_nil : string_text pairs [] []
| st_plain c t s : 32 <= c -> c <> 34 -> c <> 92 -> string_text pairs t s -> string_text pairs (c :: t) (c :: s)
| st_short c d t s : In (c, d) short_escapes -> string_text pairs t s -> string_text pairs (92 :: c :: t) (d :: s)
| st_code u n t s : u_escape u n -> ~ surrogate n -> string_text pairs t s -> string_text pairs (u ++ t) (n :: s)
| st_pair u n v m c t s : pairs = true -> u_escape u n -> u_escape v m -> is_pair n m c ->
    string_text pairs t s -> string_text pairs (u ++ v ++ t) (c :: s).

(** Values *)
Inductive json_text (pairs : bool) : json -> str -> Prop :=
| jt_null : json_text pairs JNull [110; 117; 108; 108]
| jt_true : json_text pairs (JBool true) [116; 114; 117; 101]
| jt_false : json_text pairs (JBool false) [102; 97; 108; 115; 101]
| jt_num n : number n -> json_text pairs (JNum n) n
| jt_str s t : string_text pairs t s -> json_text pairs (JStr s) (34 :: t ++ [34])
| jt_arr0 w : ws w -> json_text pairs (JArr []) (91 :: w ++ [93])
| jt_arr l t : json_items pairs l t -> json_text pairs (JArr l) (91 :: t ++ [93])
| jt_obj0 w : ws w -> json_text pairs (JObj []) (123 :: w ++ [125])
| jt_obj l t : json_members pairs l t -> json_text pairs (JObj l) (123 :: t ++ [125])
with json_items (pairs : bool) : list json -> str -> Prop :=
| ji_one v a t b : ws a -> json_text pairs v t -> ws b -> json_items pairs [v] (a ++ t ++ b)
| ji_more v a t b l u : ws a -> json_text pairs v t -> ws b -> json_items pairs l u -> json_items pairs (v :: l) (a ++ t ++ b ++ 44 :: u)
with json_members (pairs : bool) : list (str * json) -> str -> Prop :=
| jm_one k a kt b v c t d : ws a -> string_text pairs kt k -> ws b -> ws c -> json_text pairs v t -> ws d ->
    json_members pairs [(k, v)] (a ++ (34 :: kt ++ [34]) ++ b ++ 58 :: c ++ t ++ d)
| jm_more k a kt b v c t d l u : ws a -> string_text pairs kt k -> ws b -> ws c -> json_text pairs v t -> ws d -> json_members pairs l u ->
    json_members pairs ((k, v) :: l) (a ++ (34 :: kt ++ [34]) ++ b ++ 58 :: c ++ t ++ d ++ 44 :: u).

(** A document: a value between white space. *)
Definition json_doc (pairs : bool) (v : json) (text : str) : Prop := exists a t b, text = a ++ t ++ b /\ ws a /\ json_text pairs v t /\ ws b.

Scheme json_text_mind := Induction for json_text Sort Prop
with json_items_mind := Induction for json_items Sort Prop
with json_members_mind := Induction for json_members Sort Prop.
Combined Scheme json_all_ind from json_text_mind, json_items_mind, json_members_mind.

(** ** The Python values *)

Section Values.
Variable F : Type.
Variable float_of : str -> option F.
Variable is_integer : F -> option Z.
Notation pv := (pv F).

(** The keys of pairs, each one once, in the order in which they appear first. *)
Inductive first_keys : list pv -> list pv -> Prop :=
| fk_nil : first_keys [] []
| fk_new l ks k : first_keys l ks -> ~ In k ks -> first_keys (l ++ [k]) (ks ++ [k])
| fk_old l ks k : first_keys l ks -> In k ks -> first_keys (l ++ [k]) ks.
(** A dictionary made of pairs: of pairs with the same key the last one counts. *)
Definition as_dict (ps d : list (pv * pv)) : Prop :=
  first_keys (map fst ps) (map fst d) /\ forall k v, In (k, v) d <-> exists a b, ps = a ++ (k, v) :: b /\ ~ In k (map fst b).

(** The Python value that a JSON value is read as: numbers become the integer that the float of their text is, or else that float. *)
Inductive same : json -> pv -> Prop :=
| same_null : same JNull PNone
| same_bool b : same (JBool b) (PBool b)
| same_int n f z : float_of n = Some f -> is_integer f = Some z -> same (JNum n) (PNum (NInt z))
| same_float n f : float_of n = Some f -> is_integer f = None -> same (JNum n) (PNum (NFloat f))
| same_str s : same (JStr s) (PStr s)
| same_arr l vs : Forall2 same l vs -> same (JArr l) (PList vs)
| same_obj l ps d : Forall2 (fun x p => fst p = PStr (fst x) /\ same (snd x) (snd p)) l ps -> as_dict ps d -> same (JObj l) (PDict d).
End Values.
Arguments first_keys {F}. Arguments as_dict {F}. Arguments same {F}.

(** What [Json] takes for a number, given what a digit is: leading zeros are allowed. *)
Section Like.
Variable isdigit : nat -> bool.
Definition some_digits (s : str) : Prop := s <> [] /\ Forall (fun c => isdigit c = true) s.
Definition number_like (s : str) : Prop :=
  exists a b c d, s = a ++ b ++ c ++ d /\ opt_minus a /\ some_digits b /\ (c = [] \/ exists e, c = 46 :: e /\ some_digits e)
    /\ (d = [] \/ exists e sign f, d = e :: sign ++ f /\ (e = 69 \/ e = 101) /\ (sign = [] \/ sign = [43] \/ sign = [45]) /\ some_digits f).
End Like.

(** ** Integers *)

(** The integer that a literal without fraction and exponent stands for. *)
Definition decimal (s : str) : Z := fold_left (fun v c => v * 10 + (Z.of_nat c - 48))%Z s 0%Z.
Inductive int_literal : str -> Z -> Prop :=
| il_plus b : int_part b -> int_literal b (decimal b)
| il_minus b : int_part b -> int_literal (45 :: b) (- decimal b).
(** An integer that is a float of 64 bits, apart from the limit of the exponent. *)
Definition representable (z : Z) : Prop := exists m e, (Z.abs m < 2 ^ 53 /\ 0 <= e /\ z = m * 2 ^ e)%Z.
(** [r] is a float that is not farther from [z] than any other. *)
Definition nearest (z r : Z) : Prop := representable r /\ forall q, representable q -> (Z.abs (z - r) <= Z.abs (z - q))%Z.
(** Reading a float rounds to a nearest one (and there are integers up to 2^1023 among the floats). *)
Definition rounds {F} (float_of : str -> option F) (is_integer : F -> option Z) : Prop :=
  forall n z, int_literal n z -> (Z.abs z < 2 ^ 1023)%Z -> exists f r, float_of n = Some f /\ is_integer f = Some r /\ nearest z r.

(** A property of all numbers in a value. *)
Fixpoint all_numbers (P : str -> Prop) (v : json) : Prop :=
  match v with
  | JNum n => P n
  | JArr l => (fix all l := match l with [] => True | v :: l => all_numbers P v /\ all l end) l
  | JObj l => (fix all l := match l with [] => True | (_, v) :: l => all_numbers P v /\ all l end) l
  | _ => True
  end.

(** The Python value that a JSON value should be read as: integers are the same integers. *)
Section Exact.
Variable F : Type.
Variable float_of : str -> option F.
Variable is_integer : F -> option Z.
Inductive exact : json -> pv F -> Prop :=
| exact_null : exact JNull PNone
| exact_bool b : exact (JBool b) (PBool b)
| exact_int n z : int_literal n z -> exact (JNum n) (PNum (NInt z))
| exact_num n r : (forall z, ~ int_literal n z) -> same float_of is_integer (JNum n) r -> exact (JNum n) r
| exact_str s : exact (JStr s) (PStr s)
| exact_arr l vs : Forall2 exact l vs -> exact (JArr l) (PList vs)
| exact_obj l ps d : Forall2 (fun x p => fst p = PStr (fst x) /\ exact (snd x) (snd p)) l ps -> as_dict ps d -> exact (JObj l) (PDict d).
End Exact.
Arguments exact {F}.
