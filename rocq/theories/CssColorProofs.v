(** Proofs about colors. *)
From Coq Require Import ZArith QArith Qround Floats.SpecFloat Lqa ZifyBool.
From Verif Require Import Base CssReadModel CssColorModel CssColorSpec.
Local Open Scope Z_scope.

(** ** Digits *)
Lemma hex_value_iff : forall c d, hex_value c = Some d <-> digit_is c d.
Proof.
  intros c d. unfold hex_value, digit_is. split.
  - destruct ((48 <=? c) && (c <=? 57))%nat eqn:E1.
    + intros E. injection E as <-. left. lia.
    + destruct ((97 <=? c) && (c <=? 102))%nat eqn:E2.
      * intros E. injection E as <-. right. lia.
      * destruct ((65 <=? c) && (c <=? 70))%nat eqn:E3; [| discriminate].
        intros E. injection E as <-. right. lia.
  - intros [[H E] | [H [E | E]]].
    + assert (((48 <=? c) && (c <=? 57))%nat = true) as -> by lia. f_equal. lia.
    + assert (((48 <=? c) && (c <=? 57))%nat = false) as -> by lia.
      assert (((97 <=? c) && (c <=? 102))%nat = true) as -> by lia. f_equal. lia.
    + assert (((48 <=? c) && (c <=? 57))%nat = false) as -> by lia.
      assert (((97 <=? c) && (c <=? 102))%nat = false) as -> by lia.
      assert (((65 <=? c) && (c <=? 70))%nat = true) as -> by lia. f_equal. lia.
Qed.
Lemma digit_range : forall c d, digit_is c d -> 0 <= d <= 15.
Proof. intros c d [H | H]; lia. Qed.
Lemma hex_digit_value : forall n, (n < 16)%nat -> hex_value (hex_digit n) = Some (Z.of_nat n).
Proof.
  intros n H. apply hex_value_iff. unfold hex_digit, digit_is. destruct (n <? 10)%nat eqn:E; lia.
Qed.

Lemma hex_loop_acc : forall fuel n acc, hex_loop fuel n acc = hex_loop fuel n [] ++ acc.
Proof.
  induction fuel as [| fuel IH]; intros n acc; [reflexivity |]. cbn [hex_loop].
  destruct (n / 16 =? 0)%nat; [reflexivity |].
  rewrite (IH _ (_ :: acc)), (IH _ [_]), <- app_assoc. reflexivity.
Qed.
Lemma hex_loop_fuel : forall f1 f2 n acc, (n < f1)%nat -> (n < f2)%nat -> hex_loop f1 n acc = hex_loop f2 n acc.
Proof.
  induction f1 as [| f1 IH]; intros f2 n acc H1 H2; [lia |]. destruct f2 as [| f2]; [lia |]. cbn [hex_loop].
  destruct (n / 16 =? 0)%nat eqn:E; [reflexivity |].
  assert (n / 16 < n)%nat as L by (apply Nat.div_lt; [| lia]; destruct n; [discriminate | lia]).
  apply IH; lia.
Qed.
Lemma hex_eq : forall n, hex n = (if (n / 16 =? 0)%nat then [] else hex (n / 16)) ++ [hex_digit (n mod 16)].
Proof.
  intros n. unfold hex at 1. cbn [hex_loop]. destruct (n / 16 =? 0)%nat eqn:E; [reflexivity |].
  rewrite hex_loop_acc. f_equal. unfold hex. apply hex_loop_fuel; [| lia].
  apply Nat.div_lt; [| lia]. destruct n; [discriminate | lia].
Qed.
(** The last [w] digits. *)
Fixpoint digs (w n : nat) : str :=
  match w with 0%nat => [] | S w => digs w (n / 16) ++ [hex_digit (n mod 16)] end.
Lemma digs_zero : forall w, digs w 0 = repeat 48%nat w.
Proof.
  induction w as [| w IH]; [reflexivity |]. cbn [digs]. change (0 / 16)%nat with 0%nat. rewrite IH.
  rewrite <- repeat_cons. reflexivity.
Qed.
Lemma hex_length : forall w n, (0 < w)%nat -> (n < 16 ^ w)%nat ->
  (length (hex n) <= w)%nat /\ repeat 48%nat (w - length (hex n)) ++ hex n = digs w n.
Proof.
  induction w as [| w IH]; intros n P H; [lia |]. rewrite hex_eq. cbn [digs].
  destruct (n / 16 =? 0)%nat eqn:E.
  - apply Nat.eqb_eq in E. rewrite E, digs_zero. cbn [app length]. split; [lia |].
    replace (S w - 1)%nat with w by lia. reflexivity.
  - destruct w as [| w].
    + exfalso. rewrite Nat.pow_1_r in H. rewrite (Nat.div_small n 16 H) in E. discriminate.
    + assert (n / 16 < 16 ^ S w)%nat as H'.
      { apply Nat.div_lt_upper_bound; [lia |]. rewrite <- Nat.pow_succ_r'. exact H. }
      destruct (IH (n / 16)%nat ltac:(lia) H') as [L IH']. rewrite app_length. cbn [length]. split; [lia |].
      rewrite <- IH', <- app_assoc. f_equal. f_equal. lia.
Qed.
Lemma digs_length : forall w n, length (digs w n) = w.
Proof. induction w as [| w IH]; intros n; [reflexivity |]. cbn [digs]. rewrite app_length, IH. cbn [length]. lia. Qed.
Lemma int16_app : forall a b acc, int16_from acc (a ++ b) =
  match int16_from acc a with Some v => int16_from v b | None => None end.
Proof.
  induction a as [| c a IH]; intros b acc; [reflexivity |]. cbn [app int16_from].
  destruct (hex_value c); [apply IH | reflexivity].
Qed.
Lemma digs_value : forall w n acc, (n < 16 ^ w)%nat ->
  int16_from acc (digs w n) = Some (acc * 16 ^ Z.of_nat w + Z.of_nat n).
Proof.
  induction w as [| w IH]; intros n acc H.
  - cbn [Nat.pow] in H. assert (n = 0)%nat as -> by lia. cbn [digs int16_from]. f_equal. cbn. lia.
  - cbn [digs]. rewrite int16_app, IH.
    + cbn [int16_from]. rewrite hex_digit_value by (apply Nat.mod_upper_bound; lia). f_equal.
      rewrite Nat2Z.inj_succ, Z.pow_succ_r by lia. pose proof (Nat.div_mod_eq n 16) as D. lia.
    + apply Nat.div_lt_upper_bound; [lia |]. rewrite <- Nat.pow_succ_r'. exact H.
Qed.
Lemma digs_digits : forall w n, Forall (fun c => exists d, digit_is c d) (digs w n).
Proof.
  induction w as [| w IH]; intros n; [constructor |]. cbn [digs]. apply Forall_app. split; [apply IH |].
  constructor; [| constructor]. eexists. apply hex_value_iff, hex_digit_value. apply Nat.mod_upper_bound. lia.
Qed.
Lemma format_digs : forall w n, (0 < w)%nat -> 0 <= n < 16 ^ Z.of_nat w -> format_x w n = digs w (Z.to_nat n).
Proof.
  intros w n P H. unfold format_x. assert (n <? 0 = false) as -> by lia. cbn [app length].
  rewrite Z.abs_eq by lia. rewrite Nat.sub_0_r. apply hex_length; [exact P |].
  apply Nat2Z.inj_lt. rewrite Nat2Z.inj_pow, Z2Nat.id by lia. exact (proj2 H).
Qed.

(** ** Components *)
Lemma land15 : forall n, Z.land n 15 = n mod 16.
Proof. intros n. exact (Z.land_ones n 4 ltac:(lia)). Qed.
Lemma land255 : forall n, Z.land n 255 = n mod 256.
Proof. intros n. exact (Z.land_ones n 8 ltac:(lia)). Qed.
Lemma pick : forall q x d m, 0 <= x < q -> 0 <= d < m -> forall h, ((h * m + d) * q + x) / q mod m = d.
Proof.
  intros q x d m Hx Hd h. rewrite Z.div_add_l by lia. rewrite (Z.div_small x q Hx), Z.add_0_r.
  rewrite Z.add_comm, Z_mod_plus_full. apply Z.mod_small. exact Hd.
Qed.
Lemma pick0 : forall d m, 0 <= d < m -> forall h, (h * m + d) mod m = d.
Proof. intros d m Hd h. rewrite Z.add_comm, Z_mod_plus_full. apply Z.mod_small. exact Hd. Qed.
Ltac pick_as h x := match goal with |- ?n / ?q mod ?m = ?d => replace n with ((h * m + d) * q + x) by ring; apply pick; lia end.

Lemma hex_means_read : forall t c, hex_means t c -> get_hex_color t = Some c.
Proof.
  intros t c H. unfold get_hex_color, int16.
  destruct H as [c1 c2 c3 r g b H1 H2 H3 | c1 c2 c3 c4 r g b a H1 H2 H3 H4
    | c1 c2 c3 c4 c5 c6 r r' g g' b b' H1 H2 H3 H4 H5 H6
    | c1 c2 c3 c4 c5 c6 c7 c8 r r' g g' b b' a a' H1 H2 H3 H4 H5 H6 H7 H8]; cbn [int16_from length Nat.eqb];
    repeat match goal with H : digit_is ?c ?d |- _ =>
      pose proof (digit_range _ _ H); apply hex_value_iff in H; rewrite H; clear H end; rewrite ?land15, ?land255.
  - replace (16 * (16 * (16 * 0 + r) + g) + b) with (r * 256 + g * 16 + b) by ring.
    assert ((r * 256 + g * 16 + b) / 256 mod 16 = r) as -> by pick_as 0 (g * 16 + b).
    assert ((r * 256 + g * 16 + b) / 16 mod 16 = g) as -> by pick_as r b.
    assert ((r * 256 + g * 16 + b) mod 16 = b) as ->.
    { replace (r * 256 + g * 16 + b) with ((r * 16 + g) * 16 + b) by ring. apply pick0. lia. }
    rewrite !(Z.mul_comm _ 17). reflexivity.
  - replace (16 * (16 * (16 * (16 * 0 + r) + g) + b) + a) with (r * 4096 + g * 256 + b * 16 + a) by ring.
    assert ((r * 4096 + g * 256 + b * 16 + a) / 4096 mod 16 = r) as -> by pick_as 0 (g * 256 + b * 16 + a).
    assert ((r * 4096 + g * 256 + b * 16 + a) / 256 mod 16 = g) as -> by pick_as r (b * 16 + a).
    assert ((r * 4096 + g * 256 + b * 16 + a) / 16 mod 16 = b) as -> by pick_as (r * 16 + g) a.
    assert ((r * 4096 + g * 256 + b * 16 + a) mod 16 = a) as ->.
    { replace (r * 4096 + g * 256 + b * 16 + a) with ((r * 256 + g * 16 + b) * 16 + a) by ring. apply pick0. lia. }
    rewrite !(Z.mul_comm _ 17). reflexivity.
  - assert (0 <= 16 * r + r' <= 255 /\ 0 <= 16 * g + g' <= 255 /\ 0 <= 16 * b + b' <= 255) as (Hr & Hg & Hb) by lia.
    match goal with |- Some (mkcolor (?n / _ mod _) _ _ _) = _ =>
      replace n with ((16 * r + r') * 65536 + (16 * g + g') * 256 + (16 * b + b')) by ring end.
    revert Hr Hg Hb. clear. generalize (16 * r + r') (16 * g + g') (16 * b + b'). clear. intros r g b Hr Hg Hb.
    assert ((r * 65536 + g * 256 + b) / 65536 mod 256 = r) as -> by pick_as 0 (g * 256 + b).
    assert ((r * 65536 + g * 256 + b) / 256 mod 256 = g) as -> by pick_as r b.
    assert ((r * 65536 + g * 256 + b) mod 256 = b) as ->.
    { replace (r * 65536 + g * 256 + b) with ((r * 256 + g) * 256 + b) by ring. apply pick0. lia. }
    reflexivity.
  - assert (0 <= 16 * r + r' <= 255 /\ 0 <= 16 * g + g' <= 255 /\ 0 <= 16 * b + b' <= 255 /\
      0 <= 16 * a + a' <= 255) as (Hr & Hg & Hb & Ha) by lia.
    match goal with |- Some (mkcolor (?n / _ mod _) _ _ _) = _ =>
      replace n with ((16 * r + r') * 16777216 + (16 * g + g') * 65536 + (16 * b + b') * 256 + (16 * a + a')) by ring end.
    revert Hr Hg Hb Ha. clear. generalize (16 * r + r') (16 * g + g') (16 * b + b') (16 * a + a'). clear.
    intros r g b a Hr Hg Hb Ha.
    assert ((r * 16777216 + g * 65536 + b * 256 + a) / 16777216 mod 256 = r) as -> by pick_as 0 (g * 65536 + b * 256 + a).
    assert ((r * 16777216 + g * 65536 + b * 256 + a) / 65536 mod 256 = g) as -> by pick_as r (b * 256 + a).
    assert ((r * 16777216 + g * 65536 + b * 256 + a) / 256 mod 256 = b) as -> by pick_as (r * 256 + g) a.
    assert ((r * 16777216 + g * 65536 + b * 256 + a) mod 256 = a) as ->.
    { replace (r * 16777216 + g * 65536 + b * 256 + a) with ((r * 65536 + g * 256 + b) * 256 + a) by ring. apply pick0. lia. }
    reflexivity.
Qed.
(** Every text of hexadecimal digits of these lengths means a color. *)
Lemma hex_means_total : forall t, Forall (fun c => exists d, digit_is c d) t ->
  (length t = 3 \/ length t = 4 \/ length t = 6 \/ length t = 8)%nat -> exists c, hex_means t c.
Proof.
  intros t F L.
  assert (forall c l, Forall (fun c => exists d, digit_is c d) (c :: l) ->
    (exists d, digit_is c d) /\ Forall (fun c => exists d, digit_is c d) l) as I by (intros c l H; inversion H; auto).
  destruct t as [| c1 [| c2 [| c3 t]]]; try (cbn [length] in L; lia).
  apply I in F as [[d1 H1] F]. apply I in F as [[d2 H2] F]. apply I in F as [[d3 H3] F].
  destruct t as [| c4 t]; [eexists; eapply hm3; eassumption |].
  apply I in F as [[d4 H4] F].
  destruct t as [| c5 t]; [eexists; eapply hm4; eassumption |].
  apply I in F as [[d5 H5] F].
  destruct t as [| c6 t]; [cbn [length] in L; lia |].
  apply I in F as [[d6 H6] F].
  destruct t as [| c7 t]; [eexists; eapply hm6; eassumption |].
  apply I in F as [[d7 H7] F].
  destruct t as [| c8 t]; [cbn [length] in L; lia |].
  apply I in F as [[d8 H8] F].
  destruct t as [| c9 t]; [eexists; eapply hm8; eassumption | cbn [length] in L; lia].
Qed.
Lemma hex_means_writable : forall t c, hex_means t c -> writable c.
Proof.
  intros t c H. unfold writable, byte.
  destruct H; cbn [c_r c_g c_b c_a];
    repeat match goal with H : digit_is ?c ?d |- _ => apply digit_range in H end;
    (split; [lia | split; [lia | split; [lia |]]]); auto; right; eexists; (split; [| reflexivity]); lia.
Qed.

(** ** The alpha value *)
Lemma alpha_computed : forallb (fun k =>
  let a := part_of_255 (Z.of_nat k) in
  (if fl_lt a fl_one then fl_trunc (fl_mul a (fl_of_Z 255)) =? Z.of_nat k else (k =? 255)%nat)) (seq 0 256) = true.
Proof. vm_compute. reflexivity. Qed.
Lemma alpha_back : forall k, byte k ->
  (fl_lt (part_of_255 k) fl_one = true /\ fl_trunc (fl_mul (part_of_255 k) (fl_of_Z 255)) = k) \/
  (fl_lt (part_of_255 k) fl_one = false /\ k = 255).
Proof.
  intros k H. unfold byte in H. pose proof alpha_computed as A. rewrite forallb_forall in A.
  specialize (A (Z.to_nat k)). rewrite in_seq in A. specialize (A ltac:(lia)). cbv zeta in A.
  rewrite Z2Nat.id in A by lia. destruct (fl_lt (part_of_255 k) fl_one) eqn:E; [left | right]; (split; [reflexivity |]); lia.
Qed.
Lemma opaque_last : part_of_255 255 = opaque.
Proof. vm_compute. reflexivity. Qed.
Lemma opaque_not_lt : fl_lt opaque fl_one = false.
Proof. vm_compute. reflexivity. Qed.
Lemma fl_one_opaque : fl_one = opaque.
Proof. vm_compute. reflexivity. Qed.

(** ** Writing and reading back *)
Lemma read_digs6 : forall r g b, byte r -> byte g -> byte b ->
  get_hex_color (digs 6 (Z.to_nat (r * 65536 + g * 256 + b))) = Some (mkcolor r g b opaque).
Proof.
  intros r g b Hr Hg Hb. unfold byte in *. unfold get_hex_color, int16.
  pose proof (digs_length 6 (Z.to_nat (r * 65536 + g * 256 + b))) as L. rewrite L.
  assert (Z.to_nat (r * 65536 + g * 256 + b) < 16 ^ 6)%nat as B.
  { apply Nat2Z.inj_lt. rewrite Nat2Z.inj_pow, Z2Nat.id by lia. change (Z.of_nat 16 ^ Z.of_nat 6) with 16777216. lia. }
  pose proof (digs_value 6 _ 0 B) as V. destruct (digs 6 _) as [| x l]; [discriminate |].
  rewrite V. cbn [Nat.eqb]. rewrite Z2Nat.id by lia. rewrite !land255. cbn [Z.mul Z.add].
  assert ((r * 65536 + g * 256 + b) / 65536 mod 256 = r) as -> by pick_as 0 (g * 256 + b).
  assert ((r * 65536 + g * 256 + b) / 256 mod 256 = g) as -> by pick_as r b.
  assert ((r * 65536 + g * 256 + b) mod 256 = b) as ->.
  { replace (r * 65536 + g * 256 + b) with ((r * 256 + g) * 256 + b) by ring. apply pick0. lia. }
  rewrite fl_one_opaque. reflexivity.
Qed.
Lemma read_digs8 : forall r g b k, byte r -> byte g -> byte b -> byte k ->
  get_hex_color (digs 6 (Z.to_nat (r * 65536 + g * 256 + b)) ++ digs 2 (Z.to_nat k)) =
    Some (mkcolor r g b (part_of_255 k)).
Proof.
  intros r g b a Hr Hg Hb Ha. unfold byte in *. unfold get_hex_color, int16.
  pose proof (digs_length 6 (Z.to_nat (r * 65536 + g * 256 + b))) as L.
  pose proof (digs_length 2 (Z.to_nat a)) as L2. rewrite app_length, L, L2.
  assert (Z.to_nat (r * 65536 + g * 256 + b) < 16 ^ 6)%nat as B.
  { apply Nat2Z.inj_lt. rewrite Nat2Z.inj_pow, Z2Nat.id by lia. change (Z.of_nat 16 ^ Z.of_nat 6) with 16777216. lia. }
  assert (Z.to_nat a < 16 ^ 2)%nat as B2.
  { apply Nat2Z.inj_lt. rewrite Nat2Z.inj_pow, Z2Nat.id by lia. change (Z.of_nat 16 ^ Z.of_nat 2) with 256. lia. }
  pose proof (digs_value 6 _ 0 B) as V. rewrite Z2Nat.id in V by lia.
  pose proof (digs_value 2 _ (0 * 16 ^ Z.of_nat 6 + (r * 65536 + g * 256 + b)) B2) as V2. rewrite Z2Nat.id in V2 by lia.
  destruct (digs 6 _ ++ digs 2 _) as [| x l] eqn:E.
  { apply (f_equal (@length nat)) in E. rewrite app_length, L in E. discriminate. }
  rewrite <- E, int16_app, V, V2. change (6 + 2)%nat with 8%nat. cbn [Nat.eqb]. rewrite !land255.
  change (0 * 16 ^ Z.of_nat 6) with 0. rewrite Z.add_0_l. change (16 ^ Z.of_nat 2) with 256.
  replace ((r * 65536 + g * 256 + b) * 256 + a) with (r * 16777216 + g * 65536 + b * 256 + a) by ring.
  assert ((r * 16777216 + g * 65536 + b * 256 + a) / 16777216 mod 256 = r) as -> by pick_as 0 (g * 65536 + b * 256 + a).
  assert ((r * 16777216 + g * 65536 + b * 256 + a) / 65536 mod 256 = g) as -> by pick_as r (b * 256 + a).
  assert ((r * 16777216 + g * 65536 + b * 256 + a) / 256 mod 256 = b) as -> by pick_as (r * 256 + g) a.
  assert ((r * 16777216 + g * 65536 + b * 256 + a) mod 256 = a) as ->.
  { replace (r * 16777216 + g * 65536 + b * 256 + a) with ((r * 65536 + g * 256 + b) * 256 + a) by ring. apply pick0. lia. }
  reflexivity.
Qed.
Lemma written_read : forall c, writable c -> exists t, color2hex c = 35%nat :: t /\
  (length t = 6 \/ length t = 8)%nat /\ Forall (fun x => exists d, digit_is x d) t /\ get_hex_color t = Some c.
Proof.
  intros [r g b a] (Hr & Hg & Hb & Ha). cbn [c_r c_g c_b c_a] in *. unfold color2hex. cbn [c_r c_g c_b c_a].
  eexists. split; [reflexivity |].
  rewrite format_digs by (change (Z.of_nat 6) with 6; change (16 ^ 6) with 16777216; unfold byte in *; lia).
  assert ((fl_lt a fl_one = false /\ a = opaque) \/
          (fl_lt a fl_one = true /\ exists k, byte k /\ a = part_of_255 k /\ fl_trunc (fl_mul a (fl_of_Z 255)) = k)) as C.
  { destruct Ha as [-> | (k & Hk & ->)]; [left; split; [apply opaque_not_lt | reflexivity] |].
    destruct (alpha_back k Hk) as [[E T] | [E ->]]; [right | left; split; [exact E | apply opaque_last]].
    split; [exact E |]. exists k. auto. }
  destruct C as [[E ->] | (E & k & Hk & -> & T)]; rewrite E.
  - rewrite app_nil_r, digs_length. split; [auto |]. split; [apply digs_digits | apply read_digs6; assumption].
  - rewrite T, format_digs by (change (Z.of_nat 2) with 2; change (16 ^ 2) with 256; unfold byte in *; lia).
    rewrite app_length, !digs_length. split; [auto |].
    split; [apply Forall_app; split; apply digs_digits | apply read_digs8; assumption].
Qed.

(** ** Components of [rgb] *)
Lemma value_within : forall n maximum, (0 <= maximum)%Q -> within maximum n (get_number_value n false maximum).
Proof.
  intros n maximum P. unfold within, get_number_value. cbv zeta.
  destruct (Qlt_le_dec n 0) as [H | H].
  - destruct (Qlt_le_dec maximum 0) as [H' | H']; [lra |]. repeat split; intros; lra.
  - destruct (Qlt_le_dec maximum n) as [H' | H']; repeat split; intros; lra.
Qed.
Lemma value_range : forall n p maximum, (0 <= maximum)%Q ->
  (0 <= get_number_value n p maximum <= maximum)%Q.
Proof.
  intros n p maximum P. unfold get_number_value. cbv zeta.
  generalize (if p then inject_Z (Qfloor (n * maximum / inject_Z 100)) else n). intros m.
  destruct (Qlt_le_dec m 0) as [H | H]; destruct (Qlt_le_dec maximum _) as [H' | H']; lra.
Qed.
Lemma floor_cases : forall n m : Q, (n < m)%Q -> Qfloor n <= Qfloor m.
Proof. intros n m H. apply Qfloor_resp_le. lra. Qed.
Lemma value_component : forall n p, component 255 (n, p) (get_number_value n p 255).
Proof.
  intros n p. unfold component. cbn [fst snd]. destruct p; [| apply value_within; lra].
  exists (get_number_value (n * 255 / 100) false 255). split; [apply value_within; lra |].
  unfold get_number_value. cbv zeta. change (inject_Z 100) with 100%Q. set (e := (n * 255 / 100)%Q).
  pose proof (Qfloor_le e) as L. pose proof (Qlt_floor e) as L'. rewrite inject_Z_plus in L'.
  destruct (Qlt_le_dec e 0) as [H | H].
  - destruct (Qlt_le_dec (inject_Z (Qfloor e)) 0) as [H1 | H1]; [| lra].
    destruct (Qlt_le_dec 255 0) as [H2 | H2]; [lra | reflexivity].
  - assert (0 <= inject_Z (Qfloor e))%Q as P.
    { change 0%Q with (inject_Z 0). rewrite <- Zle_Qle. change 0 with (Qfloor 0). apply Qfloor_resp_le. exact H. }
    destruct (Qlt_le_dec (inject_Z (Qfloor e)) 0) as [H1 | H1]; [lra |].
    destruct (Qlt_le_dec 255 e) as [H2 | H2].
    + assert (255 <= inject_Z (Qfloor e))%Q as P'.
      { change 255%Q with (inject_Z 255). rewrite <- Zle_Qle. change 255 with (Qfloor 255). apply Qfloor_resp_le. lra. }
      destruct (Qlt_le_dec 255 (inject_Z (Qfloor e))) as [H3 | H3]; [reflexivity |].
      change (inject_Z (Qfloor 255)) with 255%Q. lra.
    + destruct (Qlt_le_dec 255 (inject_Z (Qfloor e))) as [H3 | H3]; [lra | reflexivity].
Qed.
Lemma counted : forall l, (forall n p, In (n, p) (numbers l) -> ~ (n == 0)%Q) ->
  filter counts l = map (fun x => ANum (fst x) (snd x)) (numbers l).
Proof.
  induction l as [| [n p |] l IH]; intros H; [reflexivity | |].
  - cbn [numbers map filter counts fst snd]. destruct (Qeq_bool n 0) eqn:E.
    + apply Qeq_bool_iff in E. destruct (H n p); [left; reflexivity | exact E].
    + cbn [negb]. f_equal. apply IH. intros m q Hm. apply (H m q). right. exact Hm.
  - cbn [numbers filter counts]. apply IH. exact H.
Qed.
Lemma alpha_percent : forall n, (0 <= n)%Q -> (n < 100)%Q -> (get_number_value n true 1 == 0)%Q.
Proof.
  intros n P L. unfold get_number_value. cbv zeta. change (inject_Z 100) with 100%Q.
  assert (n * 1 / 100 == n / 100)%Q as E by field.
  assert (Qfloor (n * 1 / 100) = 0) as ->.
  { pose proof (Qfloor_le (n * 1 / 100)) as A. pose proof (Qlt_floor (n * 1 / 100)) as B.
    set (q := Qfloor _) in *. clearbody q.
    assert (0 <= n / 100)%Q as P1 by (apply Qle_shift_div_l; lra).
    assert (n / 100 < 1)%Q as P2 by (apply Qlt_shift_div_r; lra).
    assert (inject_Z q < inject_Z 1)%Q as U by (change (inject_Z 1) with 1%Q; lra).
    assert (inject_Z (-1) < inject_Z q)%Q as U'.
    { rewrite inject_Z_plus in B. change (inject_Z 1) with 1%Q in B. change (inject_Z (-1)) with (-1 # 1)%Q. lra. }
    rewrite <- Zlt_Qlt in U, U'. lia. }
  destruct (Qlt_le_dec (inject_Z 0) 0) as [H | H]; destruct (Qlt_le_dec 1 _) as [H' | H']; try reflexivity;
    change (inject_Z 0) with 0%Q in *; lra.
Qed.
