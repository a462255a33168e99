(** Specification for colors. *)
From Coq Require Import ZArith QArith Qround Floats.SpecFloat.
From Verif Require Import Base CssColorModel.
Local Open Scope Z_scope.

(** Values of hexadecimal digits, small or capital: 0-9, a-f, A-F. *)
Definition digit_is (c : nat) (d : Z) : Prop :=
  (0 <= d <= 9 /\ Z.of_nat c = 48 + d) \/ (10 <= d <= 15 /\ (Z.of_nat c = 87 + d \/ Z.of_nat c = 55 + d)).
Definition byte (n : Z) : Prop := 0 <= n <= 255.
(** [k / 255] as a binary64 number, and 1.0. *)
Definition part_of_255 (k : Z) : spec_float :=
  SFdiv 53 1024 (binary_normalize 53 1024 k 0 false) (binary_normalize 53 1024 255 0 false).
Definition opaque : spec_float := S754_finite false 4503599627370496 (-52).

(** The colors that can be written in hexadecimal. *)
Definition writable (c : color) : Prop :=
  byte (c_r c) /\ byte (c_g c) /\ byte (c_b c) /\
  (c_a c = opaque \/ exists k, byte k /\ c_a c = part_of_255 k).

(** What the notation [#...] means, by its digits. *)
Inductive hex_means : str -> color -> Prop :=
  | hm3 c1 c2 c3 r g b : digit_is c1 r -> digit_is c2 g -> digit_is c3 b ->
      hex_means [c1; c2; c3] (mkcolor (17 * r) (17 * g) (17 * b) opaque)
  | hm4 c1 c2 c3 c4 r g b a : digit_is c1 r -> digit_is c2 g -> digit_is c3 b -> digit_is c4 a ->
      hex_means [c1; c2; c3; c4] (mkcolor (17 * r) (17 * g) (17 * b) (part_of_255 (17 * a)))
  | hm6 c1 c2 c3 c4 c5 c6 r r' g g' b b' : digit_is c1 r -> digit_is c2 r' -> digit_is c3 g -> digit_is c4 g' ->
      digit_is c5 b -> digit_is c6 b' ->
      hex_means [c1; c2; c3; c4; c5; c6] (mkcolor (16 * r + r') (16 * g + g') (16 * b + b') opaque)
  | hm8 c1 c2 c3 c4 c5 c6 c7 c8 r r' g g' b b' a a' : digit_is c1 r -> digit_is c2 r' -> digit_is c3 g ->
      digit_is c4 g' -> digit_is c5 b -> digit_is c6 b' -> digit_is c7 a -> digit_is c8 a' ->
      hex_means [c1; c2; c3; c4; c5; c6; c7; c8]
        (mkcolor (16 * r + r') (16 * g + g') (16 * b + b') (part_of_255 (16 * a + a'))).

(** A number kept within bounds. *)
Definition within (maximum n m : Q) : Prop :=
  ((n <= 0 -> m == 0) /\ (maximum <= n -> m == maximum) /\ (0 <= n <= maximum -> m == n))%Q.
(** What a component means: a number, or a percentage of the maximum, of which the integer part is taken. *)
Definition component (maximum : Q) (x : Q * bool) (m : Q) : Prop :=
  if snd x then exists e, within maximum (fst x * maximum / 100) e /\ m == inject_Z (Qfloor e)
  else within maximum (fst x) m.
(** The numbers among the arguments. *)
Fixpoint numbers (l : list arg) : list (Q * bool) :=
  match l with
  | [] => []
  | ANum n p :: l => (n, p) :: numbers l
  | AElse :: l => numbers l
  end.
