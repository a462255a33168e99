(** C94, C95: colors. *)
From Coq Require Import ZArith QArith Qround Floats.SpecFloat Lqa.
From Verif Require Import Base CssReadModel CssProofs CssColorModel CssColorSpec CssColorProofs.
Local Open Scope Z_scope.

(** ** C94: hexadecimal colors
    Three, four, six or eight digits are read as css says. *)
Theorem C94_hex_read : forall t, Forall (fun c => exists d, digit_is c d) t ->
  (length t = 3 \/ length t = 4 \/ length t = 6 \/ length t = 8)%nat ->
  exists c, hex_means t c /\ get_hex_color t = Some c.
Proof.
  intros t F L. destruct (hex_means_total t F L) as [c H]. exists c. split; [exact H | apply hex_means_read; exact H].
Qed.
Print Assumptions C94_hex_read.
(** Every color that is read that way, and every one with a name, is written with six or eight digits, and these are
    read back as exactly the same color, with the same floating point number for the opacity. *)
Theorem C94_written_read : forall c, writable c -> exists t, color2hex c = 35%nat :: t /\
  (length t = 6 \/ length t = 8)%nat /\ Forall (fun x => exists d, digit_is x d) t /\ get_hex_color t = Some c.
Proof. exact written_read. Qed.
Print Assumptions C94_written_read.
Theorem C94_writable : forall t c table,
  (hex_means t c -> writable c) /\
  ((forall r g b, table t = Some (r, g, b) -> byte r /\ byte g /\ byte b) ->
   (t = t_transparent \/ table t <> None <-> writable (get_named_color table t)) /\
   (forall r g b, t <> t_transparent -> table t = Some (r, g, b) -> get_named_color table t = mkcolor r g b fl_one)).
Proof.
  intros t c table. split; [apply hex_means_writable |]. intros H. split.
  2: { intros r g b N E. unfold get_named_color. destruct (str_eqb t t_transparent) eqn:X; [apply str_eqb_eq in X; contradiction | now rewrite E]. }
  split.
  2: { unfold get_named_color. destruct (str_eqb t t_transparent) eqn:E; [left; now apply str_eqb_eq |]. destruct (table t); [right; discriminate |].
       intros [[W _] _]. cbn in W. exfalso. lia. }
  intros N. unfold get_named_color.
  destruct (str_eqb t t_transparent) eqn:E.
  - split; [unfold byte; cbn; lia |]. split; [unfold byte; cbn; lia |]. split; [unfold byte; cbn; lia |].
    right. exists 0. split; [unfold byte; lia |]. vm_compute. reflexivity.
  - destruct N as [N | N]; [apply str_eqb_neq in E; contradiction |].
    destruct (table t) as [[[r g] b] |]; [| congruence]. destruct (H r g b eq_refl) as (Hr & Hg & Hb).
    split; [exact Hr |]. split; [exact Hg |]. split; [exact Hb |]. left. vm_compute. reflexivity.
Qed.
Print Assumptions C94_writable.
(* 17fA *)
Example C94_ex : hex_means [49; 55; 102; 65]%nat (mkcolor 17 119 255 (part_of_255 170)) /\
  color2hex (mkcolor 17 119 255 (part_of_255 170)) = [35; 49; 49; 55; 55; 102; 102; 97; 97]%nat.
Proof.
  split; [| vm_compute; reflexivity].
  apply (hm4 49 55 102 65 1 7 15 10); unfold digit_is; lia.
Qed.

(** ** C95: the functions rgb() and rgba()
    Full statement: the arguments are the components, kept within 0 to 255, and 0 to 1 for the opacity; percentages are
    taken of those maxima. Numbers that are zero are left out, so that others take their place. *)
Theorem C95_zero_refuted : forall l1 l2 p, get_rgba_color (l1 ++ ANum 0 p :: l2) = get_rgba_color (l1 ++ l2).
Proof.
  intros l1 l2 p. unfold get_rgba_color. rewrite !filter_app. cbn [filter counts].
  assert (Qeq_bool 0 0 = true) as -> by reflexivity. reflexivity.
Qed.
Print Assumptions C95_zero_refuted.
Theorem C95_red_refuted : get_rgba_color [ANum 255 false; AElse; ANum 0 false; AElse; ANum 0 false] = (255, -1, -1, 1)%Q /\
  get_rgba_color [ANum 1 false; ANum 2 false; ANum 3 false; ANum 0 false] = (1, 2, 3, 1)%Q.
Proof. split; reflexivity. Qed.
Print Assumptions C95_red_refuted.
(** A percentage for the opacity, other than 100%, makes the color transparent. *)
Theorem C95_alpha_percent_refuted : forall r g b n, ~ (r == 0)%Q -> ~ (g == 0)%Q -> ~ (b == 0)%Q -> (0 < n < 100)%Q ->
  exists r' g' b' a, get_rgba_color [ANum r false; ANum g false; ANum b false; ANum n true] = (r', g', b', a) /\ (a == 0)%Q.
Proof.
  intros r g b n Hr Hg Hb Hn. unfold get_rgba_color. rewrite counted; cycle 1.
  { intros m q [E | [E | [E | [E | []]]]]; injection E as <- <-; try assumption. lra. }
  cbn [numbers map fst snd take]. eexists _, _, _, _. split; [reflexivity |]. apply alpha_percent; lra.
Qed.
Print Assumptions C95_alpha_percent_refuted.
(** A component that is not an integer stays so, where the documentation promises an integer. *)
Theorem C95_fraction_refuted : exists r g b a,
  get_rgba_color [ANum (3 # 2) false; ANum 2 false; ANum 3 false] = (r, g, b, a) /\ forall z, ~ (r == inject_Z z)%Q.
Proof.
  eexists _, _, _, _. split; [reflexivity |]. intros z H. unfold Qeq, inject_Z in H. cbn in H. lia.
Qed.
Print Assumptions C95_fraction_refuted.
(** Without zeros and percentages for the opacity, it is right. *)
Theorem C95_rgb_partial : forall l r g b rest, numbers l = r :: g :: b :: rest ->
  (forall n p, In (n, p) (numbers l) -> ~ (n == 0)%Q) -> (forall x rest', rest = x :: rest' -> snd x = false) ->
  exists r' g' b' a', get_rgba_color l = (r', g', b', a') /\
    component 255 r r' /\ component 255 g g' /\ component 255 b b' /\
    match rest with [] => (a' == 1)%Q | x :: _ => component 1 x a' end.
Proof.
  intros l [r pr] [g pg] [b pb] rest E N P. unfold get_rgba_color. rewrite (counted l N), E. cbn [map take fst snd].
  destruct rest as [| [a pa] rest]; cbn [map take fst snd].
  - eexists _, _, _, _. split; [reflexivity |]. split; [apply value_component |]. split; [apply value_component |].
    split; [apply value_component | reflexivity].
  - specialize (P (a, pa) rest eq_refl). cbn [snd] in P. subst pa.
    eexists _, _, _, _. split; [reflexivity |]. split; [apply value_component |]. split; [apply value_component |].
    split; [apply value_component |]. unfold component. cbn [fst snd]. apply value_within. lra.
Qed.
Print Assumptions C95_rgb_partial.
(** Whatever the arguments are, a component is within its bounds, or missing. *)
Theorem C95_in_range : forall l r g b a, get_rgba_color l = (r, g, b, a) ->
  (forall x, In x [r; g; b] -> (x == -1)%Q \/ (0 <= x <= 255)%Q) /\ (0 <= a <= 1)%Q.
Proof.
  intros l r g b a E.
  assert (forall d m l, (0 <= m)%Q -> (fst (take d m l) = d \/ 0 <= fst (take d m l) <= m)%Q) as T.
  { intros d m k Hm. destruct k as [| [n p |] k]; cbn [take fst]; auto. right. apply value_range. exact Hm. }
  unfold get_rgba_color in E. set (vs := filter counts l) in E.
  pose proof (T (-1)%Q 255%Q vs ltac:(lra)) as T1. destruct (take (-1) 255 vs) as [r' v1].
  pose proof (T (-1)%Q 255%Q v1 ltac:(lra)) as T2. destruct (take (-1) 255 v1) as [g' v2].
  pose proof (T (-1)%Q 255%Q v2 ltac:(lra)) as T3. destruct (take (-1) 255 v2) as [b' v3].
  pose proof (T 1%Q 1%Q v3 ltac:(lra)) as T4. destruct (take 1 1 v3) as [a' v4].
  cbn [fst] in *. injection E as <- <- <- <-. split.
  - intros x [<- | [<- | [<- | []]]]; [destruct T1 as [-> | T1] | destruct T2 as [-> | T2] | destruct T3 as [-> | T3]];
      (left; reflexivity) || (right; assumption).
  - destruct T4 as [-> | T4]; lra.
Qed.
Print Assumptions C95_in_range.
(* rgba(50%, 300, -1, 0.5) *)
Example C95_ex : get_rgba_color [ANum 50 true; AElse; ANum 300 false; AElse; ANum (-1) false; AElse; ANum (1 # 2) false] =
  (127, 255, 0, 1 # 2)%Q.
Proof. reflexivity. Qed.
