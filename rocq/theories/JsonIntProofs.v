(** Integers in JSON texts, and floats. *)
From Verif Require Import Base JsonModel JsonSpec.
From Coq Require Import ZArith ZifyBool.
Local Open Scope Z_scope.

Lemma small_representable z : Z.abs z <= 2 ^ 53 -> representable z.
Proof.
  intros H. destruct (Z.eq_dec (Z.abs z) (2 ^ 53)) as [E | E].
  - exists (Z.sgn z * 2 ^ 52), 1. destruct (Z.abs_eq_cases z (2 ^ 53)) as [-> | ->]; [now rewrite E | |]; repeat split; reflexivity || discriminate.
  - exists z, 0. rewrite Z.pow_0_r, Z.mul_1_r. lia.
Qed.
Lemma nearest_exact z r : representable z -> nearest z r -> r = z.
Proof. intros Hz [_ H]. specialize (H z Hz). lia. Qed.

Lemma odd_not_representable : ~ representable (2 ^ 53 + 1).
Proof.
  intros (m & e & Hm & He & E). destruct (Z.eq_dec e 0) as [-> | Hne]; [rewrite Z.pow_0_r in E; lia |].
  replace e with (Z.succ (e - 1)) in E by lia. rewrite Z.pow_succ_r in E by lia.
  assert (Ho : Z.odd (2 ^ 53 + 1) = Z.odd (2 * (m * 2 ^ (e - 1)))) by (f_equal; lia).
  rewrite Z.odd_mul in Ho. discriminate.
Qed.

Section Exact.
Variable F : Type.
Variable float_of : str -> option F.
Variable is_integer : F -> option Z.
Hypothesis Hround : rounds float_of is_integer.

Lemma literal_det n z z' : int_literal n z -> int_literal n z' -> z = z'.
Proof.
  intros H H'. destruct H as [b Hb | b Hb]; inversion H' as [b' Hb' E | b' Hb' E]; subst; try reflexivity.
  - exfalso. destruct Hb as [[_ Hd] _]. inversion Hd as [| ? ? Hc]; subst. unfold digit in Hc. lia.
  - exfalso. destruct Hb' as [[_ Hd] _]. inversion Hd as [| ? ? Hc]; subst. unfold digit in Hc. lia.
Qed.
Lemma same_exact_num n r : same float_of is_integer (JNum n) r -> (forall z, int_literal n z -> Z.abs z <= 2 ^ 53) ->
  (exists z, int_literal n z) \/ (forall z, ~ int_literal n z) -> exact float_of is_integer (JNum n) r.
Proof.
  intros Hs Hz [[z Hl] | Hno]; [| constructor; assumption]. specialize (Hz z Hl).
  assert (H1023 : Z.abs z < 2 ^ 1023) by (eapply Z.le_lt_trans; [exact Hz | reflexivity]).
  destruct (Hround n z Hl H1023) as (f & q & Ef & Ei & Hn). pose proof (nearest_exact z q (small_representable z Hz) Hn). subst q.
  inversion Hs as [| | ? f' z' E1 E2 | ? f' E1 E2 | | |]; subst; rewrite Ef in E1; injection E1 as <-; rewrite Ei in E2; [| discriminate].
  injection E2 as <-. now constructor.
Qed.

Lemma digit_dec c : {digit c} + {~ digit c}.
Proof. unfold digit. destruct (le_dec 48 c); destruct (le_dec c 57); (left; lia) || (right; lia). Defined.
Lemma int_part_dec s : {int_part s} + {~ int_part s}.
Proof.
  destruct s as [| c s]; [right; intros [[H _] _]; congruence |].
  destruct (Forall_dec digit digit_dec (c :: s)) as [Hd | Hd]; [| right; intros [[_ H] _]; contradiction].
  destruct (Nat.eq_dec c 48) as [-> | Hc].
  - destruct s as [| d s]; [left; split; [split; [discriminate | exact Hd] | intros t [= <-]; reflexivity] |]. right. intros [_ H]. now specialize (H _ eq_refl).
  - left. split; [split; [discriminate | exact Hd] |]. intros t [= E _]. contradiction.
Qed.
Lemma literal_dec n : (exists z, int_literal n z) \/ (forall z, ~ int_literal n z).
Proof.
  destruct (int_part_dec n) as [H | H]; [left; eexists; constructor; exact H |]. destruct n as [| c n].
  - right. intros z Hz. inversion Hz; subst; contradiction.
  - destruct (Nat.eq_dec c 45) as [-> | Hc].
    + destruct (int_part_dec n) as [H' | H']; [left; eexists; apply il_minus; exact H' |]. right. intros z Hz. inversion Hz; subst; contradiction.
    + right. intros z Hz. inversion Hz; subst; [contradiction | congruence].
Qed.

Definition small (n : str) : Prop := forall z, int_literal n z -> Z.abs z <= 2 ^ 53.
Lemma same_exact v r : same float_of is_integer v r -> all_numbers small v -> exact float_of is_integer v r.
Proof.
  revert v r. fix IH 1. intros v r Hs Hn. destruct v as [| b | n | s | l | l].
  - inversion Hs; subst. constructor.
  - inversion Hs; subst. constructor.
  - apply same_exact_num; [exact Hs | exact Hn | apply literal_dec].
  - inversion Hs; subst. constructor.
  - inversion Hs as [| | | | | ? vs Hf |]; subst. constructor. clear Hs. revert vs Hf. induction l as [| v l IHl]; intros vs Hf; inversion Hf; subst; constructor.
    + apply IH; [assumption | apply Hn].
    + apply IHl; [apply Hn | assumption].
  - inversion Hs as [| | | | | | ? ps d Hf Hd]; subst. apply (exact_obj _ _ _ _ ps); [| exact Hd]. clear Hs Hd. revert ps Hf. induction l as [| [k v] l IHl]; intros ps Hf; inversion Hf as [| ? p ? ? [H1 H2]]; subst; constructor.
    + split; [exact H1 |]. apply IH; [exact H2 | apply Hn].
    + apply IHl; [apply Hn | assumption].
Qed.
End Exact.

(** ** Rounding, to see that [rounds] can be met *)

Definition round_pos (z : Z) : Z :=
  let e := Z.max 0 (Z.log2 z - 52) in
  let a := z / 2 ^ e * 2 ^ e in
  let b := a + 2 ^ e in
  if z - a <? b - z then a else if b - z <? z - a then b else if Z.even (z / 2 ^ e) then a else b.
Definition round_int (z : Z) : Z := if z <? 0 then - round_pos (- z) else round_pos z.

Lemma representable_opp z : representable z -> representable (- z).
Proof. intros (m & e & H1 & H2 & ->). exists (- m), e. split; [lia |]. split; [exact H2 | lia]. Qed.

Lemma round_pos_ok z : 0 <= z -> nearest z (round_pos z).
Proof.
  intros Hz. unfold round_pos. set (e := Z.max 0 (Z.log2 z - 52)). assert (He : 0 <= e) by lia. set (p := 2 ^ e). assert (Hp : 0 < p) by (apply Z.pow_pos_nonneg; lia).
  set (k := z / p). pose proof (Z.div_mod z p ltac:(lia)) as Ez. fold k in Ez. pose proof (Z.mod_pos_bound z p Hp) as Hmod.
  assert (Hk0 : 0 <= k) by (apply Z.div_pos; lia).
  assert (Hk : k < 2 ^ 53).
  { destruct (Z.eq_dec z 0) as [-> | Hz0]; [unfold k; rewrite Z.div_0_l by lia; reflexivity |].
    apply Z.div_lt_upper_bound; [exact Hp |]. unfold p. rewrite <- Z.pow_add_r by lia. pose proof (Z.log2_spec z ltac:(lia)) as [_ H].
    eapply Z.lt_le_trans; [exact H |]. apply Z.pow_le_mono_r; lia. }
  assert (Ra : representable (k * p)) by (exists k, e; split; [lia | auto]).
  assert (Rb : representable (k * p + p)).
  { destruct (Z.eq_dec (k + 1) (2 ^ 53)) as [E | E].
    - exists (2 ^ 52), (e + 1). split; [reflexivity |]. split; [lia |]. rewrite Z.pow_add_r by lia. fold p. replace (k * p + p) with ((k + 1) * p) by lia. rewrite E. lia.
    - exists (k + 1), e. split; [lia |]. split; [exact He |]. fold p. lia. }
  assert (Hgap : forall q, representable q -> q <= k * p \/ k * p + p <= q).
  { intros q (m & f & Hm & Hf & ->).
    destruct (Z.eq_dec e 0) as [E0 | E0].
    - assert (Hp1 : p = 1) by (unfold p; rewrite E0; reflexivity). rewrite Hp1. lia.
    - assert (Hlog : Z.log2 z = 52 + e) by lia. assert (Hz0 : 0 < z) by (destruct (Z.eq_dec z 0) as [-> | ?]; [cbn in Hlog; lia | lia]).
      pose proof (Z.log2_spec z Hz0) as [Hlo _]. rewrite Hlog in Hlo.
      assert (Hk52 : 2 ^ 52 <= k). { apply Z.div_le_lower_bound; [exact Hp |]. unfold p. rewrite <- Z.pow_add_r by lia. replace (e + 52) with (52 + e) by lia. exact Hlo. }
      destruct (Z_le_gt_dec e f) as [Hle | Hgt].
      + replace f with (e + (f - e)) by lia. rewrite Z.pow_add_r by lia. fold p. set (g := 2 ^ (f - e)). replace (m * (p * g)) with ((m * g) * p) by lia.
        destruct (Z_le_gt_dec (m * g) k) as [H1 | H1]; [left | right]; nia.
      + left. assert (Hpf : 2 ^ f * 2 <= p). { unfold p. replace (2 ^ f * 2) with (2 ^ (f + 1)) by (rewrite Z.pow_add_r by lia; reflexivity). apply Z.pow_le_mono_r; lia. }
        pose proof (Z.pow_pos_nonneg 2 f ltac:(lia) Hf) as Hpos.
        assert (H1 : m * 2 ^ f <= 2 ^ 53 * 2 ^ f) by nia. assert (H2 : 2 ^ 53 * 2 ^ f = 2 ^ 52 * (2 ^ f * 2)) by (change (2 ^ 53) with (2 ^ 52 * 2); lia).
        assert (H3 : 2 ^ 52 * (2 ^ f * 2) <= 2 ^ 52 * p) by (apply Z.mul_le_mono_nonneg_l; [discriminate | exact Hpf]). assert (H4 : 2 ^ 52 * p <= k * p) by (apply Z.mul_le_mono_nonneg_r; lia). lia. }
  cbv zeta. split.
  - destruct (_ <? _); [exact Ra |]. destruct (_ <? _); [exact Rb |]. destruct (Z.even k); [exact Ra | exact Rb].
  - intros q Hq. destruct (Hgap q Hq); destruct (Z.ltb_spec (z - k * p) (k * p + p - z)); try lia; destruct (Z.ltb_spec (k * p + p - z) (z - k * p)); try lia; destruct (Z.even k); lia.
Qed.
Lemma round_int_ok z : nearest z (round_int z).
Proof.
  unfold round_int. destruct (Z.ltb_spec z 0) as [H | H]; [| apply round_pos_ok; exact H].
  destruct (round_pos_ok (- z) ltac:(lia)) as [H1 H2]. split; [apply representable_opp, H1 |]. intros q Hq. specialize (H2 (- q) (representable_opp _ Hq)). lia.
Qed.
(** A float that is just the rounded integer. *)
Definition demo_float (n : str) : option Z := Some (round_int (match n with 45%nat :: b => - decimal b | b => decimal b end)).
Definition demo_integer (f : Z) : option Z := Some f.
Lemma demo_rounds : rounds demo_float demo_integer.
Proof.
  intros n z Hl _. assert (E : z = match n with 45%nat :: b => - decimal b | b => decimal b end).
  { destruct Hl as [b [[Hne Hd] _] | b Hb]; [| reflexivity]. destruct b as [| c b]; [congruence |]. inversion Hd as [| ? ? Hc _]; subst. unfold digit in Hc.
    do 46 (destruct c as [| c]; [lia |]). reflexivity. }
  exists (round_int z), (round_int z). unfold demo_float. rewrite <- E. split; [reflexivity |]. split; [reflexivity | apply round_int_ok].
Qed.
