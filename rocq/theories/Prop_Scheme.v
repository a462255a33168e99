(** C139: numbers of Scheme are read as the numbers they stand for. *)
From Coq Require Import ZArith QArith Lia.
From Verif Require Import Base BaseFacts SchemeModel SchemeSpec SchemeProofs.
Local Open Scope nat_scope.

(** Every integer, fraction and decimal number, of any length, with or without a sign, with every prefix, and whatever comes
    after it, is read as the number that it stands for, and it is exact or not as written (for a float: Python is asked to
    round that very number). Missing: unknown digits ([#]), and integers with both a radix other than ten and [#i]: see
    the refutations below. For complex numbers see C140; infinities and NaN are not part of the claim. *)
Theorem C139_numbers_partial : forall p r exact s b after,
  prefix_means p r exact -> body_ok r b -> no_unknown b -> delimited after ->
  ~ (exact = Some false /\ r <> 10 /\ exists ds k, b = BInt ds k) ->
  exists v, scheme_number_from_text (prefix_text p ++ sign_text s ++ body_text b ++ after) = Some v
            /\ denotes v (inject_Z (sign_val s) * body_val r b)%Q /\ is_exact v = should_be_exact exact b.
Proof. intros p r exact s b after H1 H2 H3 H4 H5. exact (numbers_read p r exact s b after H1 H2 H3 H4 H5). Qed.
Print Assumptions C139_numbers_partial.

(** [#x-fF)]: -255; [#e1.5E-3]: 3/2000; [#i1/3]: a float; [.5]: a float. *)
Example C139_hex : prefix_means (PRadix 120) 16 None /\ body_ok 16 (BInt [D 15 false; D 15 true] 0) /\ no_unknown (BInt [D 15 false; D 15 true] 0) /\ delimited [41]
  /\ prefix_text (PRadix 120) ++ sign_text (Some Minus) ++ body_text (BInt [D 15 false; D 15 true] 0) ++ [41] = [35; 120; 45; 102; 70; 41]
  /\ scheme_number_from_text [35; 120; 45; 102; 70; 41] = Some (NInt (-255)).
Proof. repeat split; try reflexivity; try discriminate; cbn; try tauto. repeat constructor. Qed.
Example C139_decimal : prefix_means (PExact 101) 10 (Some true) /\ body_ok 10 (BDec [D 1 false] (Some [D 5 false]) (Some (69, Some Minus, [D 3 false])))
  /\ prefix_text (PExact 101) ++ body_text (BDec [D 1 false] (Some [D 5 false]) (Some (69, Some Minus, [D 3 false]))) = [35; 101; 49; 46; 53; 69; 45; 51]
  /\ scheme_number_from_text [35; 101; 49; 46; 53; 69; 45; 51] = Some (NFrac 15 10000).
Proof.
  split; [split; [reflexivity|]; exists true; split; reflexivity|]. split; [|split; reflexivity]. cbn.
  repeat split; try discriminate; try tauto; repeat constructor; cbn; lia.
Qed.
Example C139_inexact : scheme_number_from_text [35; 105; 49; 47; 51] = Some (NMul 1 (NDiv (NInt 1) (NInt 3))).
Proof. reflexivity. Qed.
Example C139_dot : scheme_number_from_text [46; 53] = Some (NMul 1 (NText [46; 53])).
Proof. reflexivity. Qed.

(** Finding: more than one unknown digit multiplies by the radix times their number instead of by the power: [#x12##] is read as
    576 (18 times 32) instead of 4608 (18 times 256), [12##/3] as 240/3. And [12##], that is inexact, is an exact integer. *)
Theorem C139_unknown_refuted :
  (exists p r exact b v, prefix_means p r exact /\ body_ok r b /\ scheme_number_from_text (prefix_text p ++ body_text b) = Some v
     /\ ~ exists q, denotes v q /\ (q == body_val r b)%Q)
  /\ (exists b v, body_ok 10 b /\ scheme_number_from_text (body_text b) = Some v /\ should_be_exact None b = false /\ is_exact v = true).
Proof.
  split.
  - exists (PRadix 120), 16, None, (BInt [D 1 false; D 2 false] 2), (NMul 1 (NFloat 576)). split; [split; [cbn; tauto|reflexivity]|].
    split; [split; [discriminate|repeat constructor; cbn; lia]|]. split; [reflexivity|].
    intros (q & (x & Hx & Hq) & H). cbn [denotes] in Hx. rewrite Hx in Hq. rewrite Hq in H. unfold Qeq in H. cbn in H. lia.
  - exists (BInt [D 1 false; D 2 false] 2), (NInt 1200). split; [split; [discriminate|repeat constructor; cbn; lia]|]. repeat split; reflexivity.
Qed.
Print Assumptions C139_unknown_refuted.

(** Finding: [#i#xff] is read as the exact integer 255. *)
Theorem C139_inexact_refuted : exists p r exact b v, prefix_means p r exact /\ body_ok r b /\ no_unknown b
  /\ scheme_number_from_text (prefix_text p ++ body_text b) = Some v /\ should_be_exact exact b = false /\ is_exact v = true.
Proof.
  exists (PBoth true 105 120), 16, (Some false), (BInt [D 15 false; D 15 false] 0), (NInt 255).
  split; [split; [cbn; tauto|exists false; split; reflexivity]|]. split; [split; [discriminate|repeat constructor; cbn; lia]|]. repeat split; reflexivity.
Qed.
Print Assumptions C139_inexact_refuted.

(** Finding: faulty input does not always raise ValueError: [1/2/3] is 1/2, [1e5.2] is [float("1e5")], [--5] is 5, and
    [+infx0] is infinity. *)
Theorem C139_faulty_refuted :
  scheme_number_from_text [49; 47; 50; 47; 51] = Some (NFrac 1 2)
  /\ scheme_number_from_text [49; 101; 53; 46; 50] = Some (NMul 1 (NText [49; 101; 53]))
  /\ scheme_number_from_text [45; 45; 53] = Some (NInt 5)
  /\ scheme_number_from_text [43; 105; 110; 102; 120; 48] = Some (NInf false).
Proof. repeat split; reflexivity. Qed.
Print Assumptions C139_faulty_refuted.
