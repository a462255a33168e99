(** How numbers are written in Scheme (R5RS 7.1.1), and which numbers these are. *)
From Verif Require Import Base SchemeModel.
From Coq Require Import ZArith QArith.
Local Open Scope nat_scope.

(** A digit with its value; letters in either case. *)
Record digit := D { d_val : nat; d_upper : bool }.
Definition d_char (d : digit) : nat := if d_val d <? 10 then 48 + d_val d else (if d_upper d then 55 else 87) + d_val d.
Definition digits_of (radix : nat) (ds : list digit) : Prop := Forall (fun d => d_val d < radix)%nat ds.
(** The number that digits stand for. *)
Fixpoint val (radix : nat) (ds : list digit) : Z :=
  match ds with
  | [] => 0%Z
  | d :: ds => (Z.of_nat (d_val d) * Z.of_nat radix ^ Z.of_nat (length ds) + val radix ds)%Z
  end.
Definition text (ds : list digit) : str := map d_char ds.

Inductive sign := Plus | Minus.
Definition sign_text (s : option sign) : str := match s with None => [] | Some Plus => [43] | Some Minus => [45] end.
Definition sign_val (s : option sign) : Z := match s with Some Minus => (-1)%Z | _ => 1%Z end.

(** An integer, a fraction, or a decimal number: digits, perhaps a dot and digits, and perhaps an exponent with its marker. The
    integers may end with a number of [#], that stand for unknown digits and are read as zeros. *)
Inductive body :=
| BInt (ds : list digit) (unknown : nat)
| BRatio (n d : list digit) (unknown_n unknown_d : nat)
| BDec (ds : list digit) (frac : option (list digit)) (exp : option (nat * option sign * list digit)).

Definition hashes (n : nat) : str := repeat 35 n.
Definition body_text (b : body) : str :=
  match b with
  | BInt ds k => text ds ++ hashes k
  | BRatio n d k l => text n ++ hashes k ++ 47 :: text d ++ hashes l
  | BDec ds frac exp =>
      text ds ++ match frac with Some f => 46 :: text f | None => [] end
              ++ match exp with Some (m, s, e) => m :: sign_text s ++ text e | None => [] end
  end.
Definition body_val (radix : nat) (b : body) : Q :=
  let shifted ds k := (val radix ds * Z.of_nat radix ^ Z.of_nat k)%Z in
  match b with
  | BInt ds k => inject_Z (shifted ds k)
  | BRatio n d k l => (inject_Z (shifted n k) / inject_Z (shifted d l))%Q
  | BDec ds frac exp =>
      let f := match frac with Some f => f | None => [] end in
      (inject_Z (val radix (ds ++ f)) * inject_Z 10 ^ (match exp with Some (_, s, e) => sign_val s * val radix e | None => 0 end - Z.of_nat (length f)))%Q
  end.
(** What may be written. *)
Definition body_ok (radix : nat) (b : body) : Prop :=
  match b with
  | BInt ds k => ds <> [] /\ digits_of radix ds
  | BRatio n d k l => n <> [] /\ digits_of radix n /\ d <> [] /\ digits_of radix d /\ val radix d <> 0%Z
  | BDec ds frac exp =>
      radix = 10%nat /\ digits_of 10 ds
      /\ match frac with Some f => digits_of 10 f /\ ds ++ f <> [] | None => ds <> [] /\ exp <> None end
      /\ match exp with Some (m, _, e) => In (lower m) [101; 115; 102; 100; 108]%nat /\ e <> [] /\ digits_of 10 e | None => True end
  end.
Definition no_unknown (b : body) : Prop :=
  match b with BInt _ k => k = 0%nat | BRatio _ _ k l => k = 0%nat /\ l = 0%nat | BDec _ _ _ => True end.

(** Prefixes: for exactness [#e] and [#i], for the radix [#b], [#o], [#d] and [#x], in any order and in either case. *)
Inductive prefix := PNone | PExact (c : nat) | PRadix (c : nat) | PBoth (exact_first : bool) (e r : nat).
Definition prefix_text (p : prefix) : str :=
  match p with
  | PNone => []
  | PExact c | PRadix c => [35; c]
  | PBoth true e r => [35; e; 35; r]
  | PBoth false e r => [35; r; 35; e]
  end%nat.
Definition is_exactness (c : nat) (b : bool) : Prop := lower c = (if b then 101 else 105)%nat.
Definition is_radix (c r : nat) : Prop := In (lower c, r) [(98, 2); (111, 8); (100, 10); (120, 16)]%nat.
(** The radix and the exactness of a prefix. *)
Definition prefix_means (p : prefix) (r : nat) (exact : option bool) : Prop :=
  match p with
  | PNone => r = 10%nat /\ exact = None
  | PExact c => r = 10%nat /\ exists b, exact = Some b /\ is_exactness c b
  | PRadix c => is_radix c r /\ exact = None
  | PBoth _ e c => is_radix c r /\ exists b, exact = Some b /\ is_exactness e b
  end.

(** The number that a value of Python stands for; for a float, the number that is rounded. *)
Fixpoint denotes (v : sval) (q : Q) : Prop :=
  match v with
  | NInt z => (q == inject_Z z)%Q
  | NFrac n d => d <> 0%Z /\ (q == inject_Z n / inject_Z d)%Q
  | NText s => exists m e, py_decimal s = Some (m, e) /\ (q == inject_Z m * inject_Z 10 ^ e)%Q
  | NFloat z => (q == inject_Z z)%Q
  | NDiv a b => exists x y, denotes a x /\ denotes b y /\ ~ (y == 0)%Q /\ (q == x / y)%Q
  | NMul s a => exists x, denotes a x /\ (q == inject_Z s * x)%Q
  | _ => False
  end.
Definition is_exact (v : sval) : bool := match v with NInt _ | NFrac _ _ => true | _ => false end.
(** With a prefix, as it says; else integers and fractions are exact, decimal numbers and those with unknown digits are not. *)
Definition should_be_exact (exact : option bool) (b : body) : bool :=
  match exact, b with
  | Some e, _ => e
  | None, BInt _ k => Nat.eqb k 0
  | None, BRatio _ _ k l => Nat.eqb k 0 && Nat.eqb l 0
  | None, BDec _ _ _ => false
  end.
(** The text ends, or goes on with white space, a parenthesis or a comment. *)
Definition delimited (after : str) : Prop :=
  match after with [] => True | c :: _ => In c [32; 9; 10; 13; 40; 41; 59]%nat end.

(** Complex numbers: [a+bi], where [a] and [b] may be left out, and [r@phi]. *)
Inductive complex :=
| CRect (re : option (option sign * body)) (s : sign) (im : option body) (i : nat)
| CPolar (s : option sign) (b : body) (s' : option sign) (b' : body).
Definition complex_text (c : complex) : str :=
  match c with
  | CRect re s im i =>
      match re with Some (s0, b0) => sign_text s0 ++ body_text b0 | None => [] end
      ++ sign_text (Some s) ++ match im with Some b => body_text b | None => [] end ++ [i]
  | CPolar s b s' b' => (sign_text s ++ body_text b) ++ 64%nat :: sign_text s' ++ body_text b'
  end.
Definition complex_ok (r : nat) (c : complex) : Prop :=
  match c with
  | CRect re s im i => match re with Some (_, b0) => body_ok r b0 /\ no_unknown b0 | None => True end
                       /\ match im with Some b => body_ok r b /\ no_unknown b | None => True end
                       /\ lower i = 105%nat
  | CPolar _ b _ b' => (body_ok r b /\ no_unknown b) /\ (body_ok r b' /\ no_unknown b')
  end.
(** Python's [complex(x, y)] or [cmath.rect(x, y)], where [x] and [y] stand for the two numbers. *)
Definition complex_denotes (v : sval) (r : nat) (c : complex) : Prop :=
  match c with
  | CRect re s im i => exists x y, v = NComplex x y
      /\ denotes x (match re with Some (s0, b0) => inject_Z (sign_val s0) * body_val r b0 | None => 0 end)%Q
      /\ denotes y (inject_Z (sign_val (Some s)) * match im with Some b => body_val r b | None => 1 end)%Q
  | CPolar s b s' b' => exists x y, v = NRect x y /\ denotes x (inject_Z (sign_val s) * body_val r b)%Q /\ denotes y (inject_Z (sign_val s') * body_val r b')%Q
  end.
