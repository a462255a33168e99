(** Model of the colors of /repo/parce/css.py: [get_hex_color] (1224-1258), [get_named_color] (1260-1277),
    [get_rgba_color] (1279-1290), [get_number_value] (1292-1304) and [color2hex] (1386-1392). *)
From Coq Require Import ZArith QArith Qround Floats.SpecFloat.
From Verif Require Import Base CssReadModel.
Local Open Scope Z_scope.

(** ** Floating point numbers
    A Python [float] is a binary64 number; the operations are those of the standard library of Coq, with precision 53
    and greatest exponent 1024. *)
Definition fl_mul := SFmul 53 1024.
Definition fl_div := SFdiv 53 1024.
(** [float(n)], for integers below 2**53. *)
Definition fl_of_Z (n : Z) : spec_float := binary_normalize 53 1024 n 0 false.
Definition fl_one : spec_float := fl_of_Z 1.
(** [a < b] *)
Definition fl_lt (a b : spec_float) : bool := match SFcompare a b with Some Lt => true | _ => false end.
(** [int(a)], which takes the part before the point; 0 for what is no number (where Python raises). *)
Definition fl_trunc (a : spec_float) : Z :=
  match a with
  | S754_finite s m e =>
      let n := if 0 <=? e then Zpos m * 2 ^ e else Zpos m / 2 ^ (- e) in
      if s then - n else n
  | _ => 0
  end.

(** css.py:101-106 [Color]; the alpha value of ["transparent"] is an [int] 0, which is equal to 0.0. *)
Record color := mkcolor { c_r : Z; c_g : Z; c_b : Z; c_a : spec_float }.

(** ** Hexadecimal notation *)
(** [int(text, 16)]: the value of one digit, and of a text; [None]: a [ValueError]. *)
Definition hex_value (c : nat) : option Z :=
  if ((48 <=? c) && (c <=? 57))%nat then Some (Z.of_nat (c - 48))
  else if ((97 <=? c) && (c <=? 102))%nat then Some (Z.of_nat (c - 87))
  else if ((65 <=? c) && (c <=? 70))%nat then Some (Z.of_nat (c - 55))
  else None.
Fixpoint int16_from (acc : Z) (t : str) : option Z :=
  match t with
  | [] => Some acc
  | c :: t => match hex_value c with Some d => int16_from (16 * acc + d) t | None => None end
  end.
Definition int16 (t : str) : option Z := match t with [] => None | _ => int16_from 0 t end.

(** css.py:1224-1258 [get_hex_color] *)
Definition get_hex_color (text : str) : option color :=
  match int16 text with
  | None => None
  | Some c =>
      Some (if (length text =? 3)%nat then
        mkcolor (Z.land (c / 256) 15 * 17) (Z.land (c / 16) 15 * 17) (Z.land c 15 * 17) fl_one
      else if (length text =? 4)%nat then
        mkcolor (Z.land (c / 4096) 15 * 17) (Z.land (c / 256) 15 * 17) (Z.land (c / 16) 15 * 17)
          (fl_div (fl_of_Z (Z.land c 15 * 17)) (fl_of_Z 255))
      else if (length text =? 6)%nat then
        mkcolor (Z.land (c / 65536) 255) (Z.land (c / 256) 255) (Z.land c 255) fl_one
      else
        mkcolor (Z.land (c / 16777216) 255) (Z.land (c / 65536) 255) (Z.land (c / 256) 255)
          (fl_div (fl_of_Z (Z.land c 255)) (fl_of_Z 255)))
  end.

(** [format(n, '0<width>x')]: zeros between the sign and the digits. *)
Definition format_x (width : nat) (n : Z) : str :=
  let sign : str := if n <? 0 then [45%nat] else [] in
  let digits := hex (Z.to_nat (Z.abs n)) in
  sign ++ repeat 48%nat (width - length sign - length digits) ++ digits.
(** css.py:1386-1392 [color2hex], for integer components. *)
Definition color2hex (c : color) : str :=
  35%nat :: format_x 6 (c_r c * 65536 + c_g c * 256 + c_b c) ++
  (if fl_lt (c_a c) fl_one then format_x 2 (fl_trunc (fl_mul (c_a c) (fl_of_Z 255))) else []).

(** css.py:1260-1277 [get_named_color]; the dictionary of names is given. *)
Definition t_transparent : str := [116;114;97;110;115;112;97;114;101;110;116]%nat.
Definition get_named_color (table : str -> option (Z * Z * Z)) (text : str) : color :=
  if str_eqb text t_transparent then mkcolor 0 0 0 (fl_of_Z 0)
  else match table text with
       | Some (r, g, b) => mkcolor r g b fl_one
       | None => mkcolor (-1) (-1) (-1) fl_one
       end.

(** ** The functions [rgb] and [rgba]
    Numbers are taken as rational numbers here: rounding is left out. An argument is a [Value] with a number, with
    ["%"] or not, or anything else. *)
Inductive arg := ANum (n : Q) (percent : bool) | AElse.
(** css.py:1292-1304 [get_number_value]; [//] rounds down. *)
Definition get_number_value (n : Q) (percent : bool) (maximum : Q) : Q :=
  let n := if percent then inject_Z (Qfloor (n * maximum / inject_Z 100)) else n in
  let n := if Qlt_le_dec n 0 then 0%Q else n in
  if Qlt_le_dec maximum n then maximum else n.
(** [v.number] is true: it is there and not zero. *)
Definition counts (a : arg) : bool := match a with ANum n _ => negb (Qeq_bool n 0) | AElse => false end.
Definition take (default maximum : Q) (l : list arg) : Q * list arg :=
  match l with
  | ANum n p :: l => (get_number_value n p maximum, l)
  | _ => (default, l)
  end.
(** css.py:1279-1290 [get_rgba_color] *)
Definition get_rgba_color (func_args : list arg) : Q * Q * Q * Q :=
  let values := filter counts func_args in
  let '(r, values) := take (-1) 255 values in
  let '(g, values) := take (-1) 255 values in
  let '(b, values) := take (-1) 255 values in
  let '(a, values) := take 1 1 values in
  (r, g, b, a).
