(** What a CSS text stands for, independent of how it is read: the texts of names, selectors, values, declarations and rules, and the objects for them. *)
From Verif Require Import Base CssColorModel CssLangModel IniSpec.
From Coq Require Import ZArith.

(** The characters of ASCII in the classes \w, \s and \d. *)
Definition ascii_word (c : nat) : bool := ((48 <=? c) && (c <=? 57)) || ((65 <=? c) && (c <=? 90)) || (c =? 95) || ((97 <=? c) && (c <=? 122)).
Definition ascii_space (c : nat) : bool := ((9 <=? c) && (c <=? 13)) || ((28 <=? c) && (c <=? 32)).
Definition ascii_digit (c : nat) : bool := (48 <=? c) && (c <=? 57).
(** What is asked of the three classes, and of the patterns for marks in comments. *)
Record classes_ok (e : kenv) : Prop := {
  co_word : forall c, (c <? 128) = true -> k_word e c = ascii_word c;
  co_space : forall c, (c <? 128) = true -> k_space e c = ascii_space c;
  co_digit : forall c, (c <? 128) = true -> k_digit e c = ascii_digit c;
  co_digit_word : forall c, k_digit e c = true -> k_word e c = true;
  co_space_word : forall c, k_space e c = true -> k_word e c = false;
  co_marks : forall text pos kind n, k_marks e text pos = Some (kind, n) -> kind < 3 /\ 0 < n /\ pos + n <= length text }.

Section Text.
Variable e : kenv.
(** [odd c]: the value of a character that is a digit, but not one of ASCII. *)
Variable odd : nat -> option nat.
Notation spaces := (Forall (fun c => k_space e c = true)).

(** ** Names *)
(** A number in hexadecimal digits. *)
Inductive hex_number : str -> nat -> Prop :=
| hn_nil : hex_number [] 0
| hn_digit ds n c v : hex_number ds n -> hex c v -> hex_number (ds ++ [c]) (n * 16 + v).
(** [name_text t n]: [t] is written for the name [n].  A character after a backslash stands for itself, a number with a space after it for the character with
    that code. *)
Inductive name_text : str -> str -> Prop :=
| nt_nil : name_text [] []
| nt_char c t n : k_word e c = true \/ c = 45 -> name_text t n -> name_text (c :: t) (c :: n)
| nt_escape c t n : c <> 10 -> (forall v, ~ hex c v) -> odd c = None -> name_text t n -> name_text (92 :: c :: t) (c :: n)
| nt_code ds k t n : hex_number ds k -> 1 <= length ds <= 6 -> k < 17 * 2 ^ 16 -> name_text t n -> name_text (92 :: ds ++ 32 :: t) (k :: n).
Definition name (t n : str) : Prop := t <> [] /\ name_text t n.
(** It does not begin with a digit. *)
Definition no_digit (t : str) : Prop := forall c r, t = c :: r -> k_digit e c = false.
(** Nor with a hyphen and a digit. *)
Definition no_number (t : str) : Prop := no_digit t /\ forall r, t = 45 :: r -> no_digit r.

(** ** Selectors *)
(** The dictionary of a selector: the keys in the order in which they are seen first, each with the list of all its values. *)
Definition klex_dec : forall a b : klex, {a = b} + {a <> b}. Proof. decide equality. Defined.
Fixpoint grouped (fuel : nat) (l : list (klex * kv)) : list (klex * list kv) :=
  match fuel, l with
  | S fuel, (k, o) :: l =>
      (k, o :: map snd (filter (fun x => if klex_dec (fst x) k then true else false) l))
      :: grouped fuel (filter (fun x => if klex_dec (fst x) k then false else true) l)
  | _, _ => []
  end.
Definition dictionary (l : list (klex * kv)) : kv := VDict (grouped (length l) l).

(** A combinator: white space alone is the operator for descendants. *)
Inductive comb_text : str -> str -> Prop :=
| cb_space a : a <> [] -> spaces a -> comb_text [32] a
| cb_char o a b : In o [62; 43; 126] -> spaces a -> spaces b -> comb_text [o] (a ++ o :: b)
| cb_column a b : a <> [] -> spaces a -> spaces b -> comb_text [124; 124] (a ++ 124 :: 124 :: b).

(** The texts of: the parts of a selector after its element; a selector; selectors with combinators; and more of these with commas. *)
Inductive parts_text : list (klex * kv) -> str -> Prop :=
| pt_nil : parts_text [] []
| pt_id t n l u : name t n -> parts_text l u -> parts_text ((KId, VStr n) :: l) (35 :: t ++ u)
| pt_class t n l u : name t n -> no_digit t -> parts_text l u -> parts_text ((KClass, VStr n) :: l) (46 :: t ++ u)
| pt_element t n l u : name t n -> parts_text l u -> parts_text ((KPseudoElement, VStr n) :: l) (58 :: 58 :: t ++ u)
| pt_pseudo t n l u : name t n -> parts_text l u -> parts_text ((KPseudoClass, VPseudo n None) :: l) (58 :: t ++ u)
| pt_function t n gs g l u : name t n -> groups_text gs g -> parts_text l u ->
    parts_text ((KPseudoClass, VPseudo n (Some gs)) :: l) (58 :: t ++ 40 :: g ++ 41 :: u)
with selector_text : kv -> str -> Prop :=
| st_plain l t : l <> [] -> parts_text l t -> selector_text (dictionary l) t
| st_any l t : parts_text l t -> selector_text (dictionary l) (42 :: t)
| st_element n tn l t : name tn n -> parts_text l t -> selector_text (dictionary ((KElement, VStr n) :: l)) (tn ++ t)
with group_text : list kv -> str -> Prop :=
| gt_one v t : selector_text v t -> group_text [v] t
| gt_more v t o c vs u : selector_text v t -> comb_text o c -> group_text vs u -> group_text (v :: VStr o :: vs) (t ++ c ++ u)
with groups_text : list (list kv) -> str -> Prop :=
| ss_one a vs t b : spaces a -> group_text vs t -> spaces b -> groups_text [vs] (a ++ t ++ b)
| ss_more a vs t b gs u : spaces a -> group_text vs t -> spaces b -> groups_text gs u -> groups_text (vs :: gs) (a ++ t ++ b ++ 44 :: u).

(** ** Values *)
(** A name of a color is a color. *)
Definition name_value (n : str) : kv :=
  VValue (Some n) None None None (option_map (fun x => let '(r, g, b) := x in Plain (mkcolor r g b fl_one)) (k_colors e n)) None false [].
(** A number: a sign or none, digits, and perhaps a point with digits. *)
Definition digits (s : str) : Prop := s <> [] /\ Forall (fun c => k_digit e c = true) s.
Definition number_text (t : str) : Prop :=
  exists sign a, (sign = [] \/ sign = [43] \/ sign = [45]) /\
    (digits a /\ t = sign ++ a \/ exists b, (a = [] \/ digits a) /\ digits b /\ t = sign ++ a ++ 46 :: b).
(** The unit of a number is a name or a percent sign.  A name like "e-3" would be the exponent of the number. *)
Definition unit_text (t u : str) : Prop :=
  t = [37] /\ u = [37] \/ name t u /\ no_digit t /\ (forall c d r, t = c :: d :: r -> (c = 69 \/ c = 101) -> d <> 45).
Definition rgb : list str := [[114; 103; 98]; [114; 103; 98; 97]].
Definition url : str := [117; 114; 108].

(** The texts of a value, and of values with white space between them; also commas are in the list. *)
Inductive value_text : kv -> str -> Prop :=
| vt_name t n : name t n -> no_number t -> n <> t_transparent -> value_text (name_value n) t
| vt_color ds c : Forall (fun d => exists v, hex d v) ds -> In (length ds) [3; 4; 6; 8] -> get_hex_color ds = Some c ->
    value_text (VValue (Some (35 :: ds)) None None None (Some (Plain c)) None false []) (35 :: ds)
| vt_number t : number_text t -> value_text (VValue (Some t) (Some t) None None None None false []) t
| vt_unit t u n : number_text t -> unit_text u n -> value_text (VValue (Some t) (Some t) (Some n) None None None false []) (t ++ u)
| vt_function t n vs v : name t n -> no_number t -> n <> url -> ~ In n rgb -> values_text vs v ->
    value_text (VValue None None None None None (Some n) false vs) (t ++ 40 :: v ++ [41])
| vt_rgb t n vs v : name t n -> no_number t -> In n rgb -> values_text vs v ->
    value_text (VValue None None None None (Some (Rgba vs)) None false []) (t ++ 40 :: v ++ [41])
with values_text : list kv -> str -> Prop :=
| vs_nil a : spaces a -> values_text [] a
| vs_one a v t b : spaces a -> value_text v t -> spaces b -> values_text [v] (a ++ t ++ b)
| vs_more a v t b vs u : spaces a -> value_text v t -> b <> [] -> spaces b -> values_text vs u -> values_text (v :: vs) (a ++ t ++ b ++ u)
| vs_comma a v t b vs u : spaces a -> value_text v t -> spaces b -> values_text vs u -> values_text (v :: VStr [44] :: vs) (a ++ t ++ b ++ 44 :: u).

(** ** Rules *)
(** Declarations; the last need not have a semicolon. *)
Inductive declarations_text : list (str * list kv) -> str -> Prop :=
| dt_nil a : spaces a -> declarations_text [] a
| dt_last a t p b vs v : spaces a -> name t p -> spaces b -> values_text vs v -> declarations_text [(p, vs)] (a ++ t ++ b ++ 58 :: v)
| dt_more a t p b vs v ds u : spaces a -> name t p -> spaces b -> values_text vs v -> declarations_text ds u ->
    declarations_text ((p, vs) :: ds) (a ++ t ++ b ++ 58 :: v ++ 59 :: u).
(** The last declaration of a property counts. *)
Definition properties (ds : list (str * list kv)) : list (str * list kv) := fold_left (fun d x => entry str_dec (fst x) (snd x) d) ds [].
(** A style sheet: rules. *)
Inductive sheet_text : list kv -> str -> Prop :=
| sh_nil a : spaces a -> sheet_text [] a
| sh_rule gs g ds d rs u : groups_text gs g -> declarations_text ds d -> sheet_text rs u ->
    sheet_text (VRule (Some (VPrelude gs)) (VProps (properties ds)) :: rs) (g ++ 123 :: d ++ 125 :: u).
End Text.
