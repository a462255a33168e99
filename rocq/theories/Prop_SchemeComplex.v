(** C140: complex numbers of Scheme are read as the numbers they stand for. *)
From Coq Require Import ZArith QArith Lia.
From Verif Require Import Base BaseFacts SchemeModel SchemeSpec SchemeProofs.
Local Open Scope nat_scope.

(** Every number [a+bi], [a-bi], [+bi], [a+i], [-i] and so on, and every [r@phi], where [a], [b], [r] and [phi] are integers, fractions or
    decimal numbers of any length without unknown digits, with every prefix and whatever comes after it, gives the complex
    number with the right parts. In particular the sign of an exponent is not taken for the sign of the imaginary part. *)
Theorem C140_complex : forall p r exact c after, prefix_means p r exact -> complex_ok r c -> delimited after ->
  exists v, scheme_number_from_text (prefix_text p ++ complex_text c ++ after) = Some v /\ complex_denotes v r c.
Proof. intros p r exact c after Hp Hc Ha. exact (complex_read p r exact c after Hp Hc Ha). Qed.
Print Assumptions C140_complex.

(** [1e-2-3e-4i ]: the parts are [1e-2] and minus [3e-4]. *)
Definition e1 : body := BDec [D 1 false] None (Some (101, Some Minus, [D 2 false])).
Definition e3 : body := BDec [D 3 false] None (Some (101, Some Minus, [D 4 false])).
Example C140_example : prefix_means PNone 10 None /\ complex_ok 10 (CRect (Some (None, e1)) Minus (Some e3) 105) /\ delimited [32]
  /\ complex_text (CRect (Some (None, e1)) Minus (Some e3) 105) = [49; 101; 45; 50; 45; 51; 101; 45; 52; 105]
  /\ scheme_number_from_text [49; 101; 45; 50; 45; 51; 101; 45; 52; 105; 32]
     = Some (NComplex (NMul 1 (NText [49; 101; 45; 50])) (NMul (-1) (NText [51; 101; 45; 52]))).
Proof.
  split; [split; reflexivity|]. split; [|split; [cbn; tauto|split; reflexivity]]. cbn.
  repeat split; try discriminate; try tauto; repeat constructor; cbn; lia.
Qed.
(** [#x-fI] is minus fifteen times [i], and [2@1/2] is a polar number. *)
Example C140_hex : scheme_number_from_text [35; 120; 45; 102; 73] = Some (NComplex (NInt 0) (NInt (-15))).
Proof. reflexivity. Qed.
Example C140_polar : scheme_number_from_text [50; 64; 49; 47; 50] = Some (NRect (NInt 2) (NFrac 1 2)).
Proof. reflexivity. Qed.
