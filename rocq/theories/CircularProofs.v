(** Termination of the lexer when targets without text (default targets) can go round in circles. *)
From Verif Require Import Base BaseFacts TargetModel LexerModel LexerSpec LexerProofs.

Local Arguments f_add : simpl never.
Local Arguments l_clip : simpl never.

Lemma triple_eqb_spec a b : triple_eqb a b = true <-> a = b.
Proof.
  destruct a as [[a1 a2] a3], b as [[b1 b2] b3]. unfold triple_eqb, fst3, snd3, thd3; simpl.
  rewrite !andb_true_iff, !Nat.eqb_eq. split; [intros [[-> ->] ->]; reflexivity|intros [= -> -> ->]; auto].
Qed.

Lemma existsb_triple x l : existsb (triple_eqb x) l = true <-> In x l.
Proof.
  rewrite existsb_exists. split.
  - intros (y & Hy & E). apply triple_eqb_spec in E. congruence.
  - intros H. exists x. split; [exact H|]. apply triple_eqb_spec. reflexivity.
Qed.

(** The triples below some bounds. *)
Definition universe (n d : nat) : list (nat * nat * nat) :=
  list_prod (list_prod (seq 0 (S n)) (seq 0 (S d))) (seq 0 (S d)).

Lemma in_universe n d a b c : a <= n -> b <= d -> c <= d -> In (a, b, c) (universe n d).
Proof. intros. unfold universe. repeat apply in_prod; apply in_seq; lia. Qed.

Section Circular.
Variables L A : Type.
Variable consume : L -> bool.
Variable parse : L -> str -> nat -> gen (item L A).
Variable text : str.
Local Notation step := (l_step consume parse text).
Local Notation run := (l_run consume parse text).
Hypothesis HP : parse_pieces L A parse text.
Hypothesis HF : parse_finite L A parse text.

(** The reachable states, as a predicate closed under steps. *)
Variable R : lstate L -> Prop.
Hypothesis R_step : forall s evs s', R s -> step s = Some (evs, s') -> R s'.
Variable D : nat.
Hypothesis R_bounded : forall s, R s -> length (s_lex s) <= D.

(** The item a reachable state takes. *)
Definition takes (s : lstate L) (it : item L A) : Prop :=
  exists l, last_opt (s_lex s) = Some l /\ parse l text (s_pos s) (s_idx s) = Some it.

(** An item with a target but without text occurs before the end of the text, and opens something
    or really leaves a context. *)
Hypothesis R_item : forall s it t, R s -> takes s it -> i_txt it = [] -> i_target it = Some t ->
  i_pos it < length text /\ (t_push t <> [] \/ (0 < t_pop t /\ t_pop t < length (s_lex s))).
(** Either all of them open something, or none opens more than one lexicon. *)
Variable always_push : bool.
Hypothesis R_push : forall s it t, R s -> takes s it -> i_txt it = [] -> i_target it = Some t ->
  if always_push then t_push t <> [] else length (t_push t) <= 1.

Let U := length (universe (length text) D).

Definition circ_inv (c : nat) (s : lstate L) : Prop :=
  NoDup (s_circ s) /\ incl (s_circ s) (universe (length text) D) /\
  (forall p n k, In (p, n, k) (s_circ s) -> p <= s_pos s) /\ c <= S D /\ s_pos s <= length text /\
  (always_push = true \/
   (forall m, c <= m -> m < length (s_lex s) -> In (s_pos s, m, 1) (s_circ s)) /\
   (forall m, c <= m -> In (s_pos s, m, 0) (s_circ s) -> In (s_pos s, m, 1) (s_circ s)) /\
   (forall m, c <= m -> In (s_pos s, m, 0) (s_circ s) -> length (s_lex s) <= m)).

Lemma circ_len s c : circ_inv c s -> length (s_circ s) <= U.
Proof. intros (H1 & H2 & _). apply NoDup_incl_length; assumption. Qed.

Definition measure (c : nat) (s : lstate L) : nat :=
  ((length text - s_pos s) * (D + 2) + c) * (U + 1) + (U - length (s_circ s)).

Lemma measure_pos c s c' s' : s_pos s < s_pos s' -> s_pos s' <= length text ->
  c' <= S D -> measure c' s' < measure c s.
Proof.
  intros H1 H2 H3. unfold measure.
  assert (E : (length text - s_pos s') * (D + 2) + c' + 1 <= (length text - s_pos s) * (D + 2) + c) by nia.
  generalize dependent (length text - s_pos s). intros a.
  generalize ((length text - s_pos s') * (D + 2) + c'). intros b.
  generalize (a * (D + 2) + c). intros d E. nia.
Qed.

Lemma measure_c c s c' s' : s_pos s = s_pos s' -> c' < c -> measure c' s' < measure c s.
Proof.
  intros H1 H2. unfold measure. rewrite H1.
  assert (E : (length text - s_pos s') * (D + 2) + c' + 1 <= (length text - s_pos s') * (D + 2) + c) by nia.
  revert E. generalize ((length text - s_pos s') * (D + 2) + c').
  generalize ((length text - s_pos s') * (D + 2) + c). intros a b E. nia.
Qed.

Lemma measure_circ c s s' : s_pos s = s_pos s' -> length (s_circ s) < length (s_circ s') ->
  length (s_circ s') <= U -> measure c s' < measure c s.
Proof. intros H1 H2 H3. unfold measure. rewrite H1. lia. Qed.

(** Fresh invariant just after the set [circular] was cleared. *)
Lemma circ_inv_clear s c : s_circ s = [] -> s_pos s <= length text -> c <= S D ->
  length (s_lex s) <= c -> circ_inv c s.
Proof.
  intros E Hp Hc Hl. unfold circ_inv. rewrite E. repeat split; auto.
  - constructor.
  - intros x [].
  - intros p n k [].
  - right. repeat split; intros m; [lia|intros ? []|intros ? []].
Qed.

Lemma step_measure s c evs s' : R s -> circ_inv c s -> step s = Some (evs, s') ->
  (s_lex s' = s_lex s /\ s_pos s' = s_pos s /\ s_circ s' = s_circ s /\ s_idx s' = S (s_idx s)) \/
  exists c', circ_inv c' s' /\ measure c' s' < measure c s.
Proof.
  intros HR Hinv Hs. pose proof (R_bounded _ (R_step _ _ _ HR Hs)) as HB.
  pose proof (R_bounded _ HR) as HB0.
  unfold l_step in Hs.
  destruct (last_opt (s_lex s)) as [l|] eqn:El; [|discriminate].
  destruct (parse l text (s_pos s) (s_idx s)) as [it|] eqn:Eit; [|discriminate].
  assert (Htk : takes s it) by (exists l; auto).
  destruct Hinv as (N1 & N2 & N3 & N4 & N5 & N6).
  destruct (HP l (s_pos s) N5) as (_ & P2 & _). destruct (P2 _ _ Eit) as (Q1 & _ & Q3 & _). clear P2.
  destruct (i_target it) as [t0|] eqn:Etg.
  2:{ left. destruct (i_txt it); [|destruct (l_emit _ _ _)]; injection Hs as <- <-; auto. }
  right.
  destruct (i_txt it) as [|ch txt] eqn:Et.
  2:{ exists (S D). simpl length in Q3.
      assert (Hs' : s_circ s' = [] /\ s_pos s' = i_pos it + length (ch :: txt)).
      { destruct (l_consumes consume _); destruct (l_emit _ _ _); injection Hs as <- <-; auto. }
      destruct Hs' as (E1 & E2). simpl length in E2. split.
      - apply circ_inv_clear; auto; lia.
      - apply measure_pos; lia. }
  destruct (R_item s it t0 HR Htk Et Etg) as (I1 & I2).
  pose proof (R_push s it t0 HR Htk Et Etg) as I3.
  remember (l_clip (length (s_lex s)) t0) as t eqn:Ht.
  assert (Hpush : t_push t = t_push t0) by (subst t; unfold l_clip; destruct (_ && _); reflexivity).
  remember (drop_last (t_pop t) (s_lex s)) as lex1 eqn:E1.
  assert (Hlen1 : length lex1 = length (s_lex s) - t_pop t) by (subst lex1; apply drop_last_length).
  destruct (l_circle text (s_circ s) (i_pos it) (length lex1) (t_push t)) as [pos circ] eqn:Ec.
  injection Hs as <- <-. cbn [s_lex s_pos s_circ] in *. rewrite app_length in HB.
  unfold l_circle in Ec. destruct (existsb _ (s_circ s)) eqn:Ex.
  - apply existsb_triple in Ex. injection Ec as Epos <-.
    assert (Hip : i_pos it = s_pos s) by (apply N3 in Ex; lia).
    destruct (t_push t) as [|y ys] eqn:Ep.
    + (* a repeated pop: the set is cleared without advancing *)
      cbn [length negb Nat.eqb andb] in Epos. subst pos.
      destruct always_push; [congruence|].
      destruct N6 as [C|(M1 & M2 & M3)]; [discriminate|].
      assert (Hpop : t_pop t = t_pop t0 /\ 0 < t_pop t0 < length (s_lex s)).
      { destruct I2 as [I2|I2]; [congruence|]. split; [|exact I2]. subst t. unfold l_clip.
        destruct (Nat.leb_spec (length (s_lex s)) (t_pop t0)); [lia|].
        rewrite andb_false_r. reflexivity. }
      destruct Hpop as (Hpop & Hpop2).
      assert (Hlt : length lex1 < c).
      { destruct (Nat.lt_ge_cases (length lex1) c) as [H|H]; [exact H|exfalso].
        rewrite Hip in Ex. simpl in Ex. apply M3 in Ex; [|exact H]. lia. }
      exists (length lex1). split.
      * apply circ_inv_clear; simpl; [reflexivity|lia|lia|]. rewrite app_nil_r. lia.
      * apply measure_c; [symmetry; exact Hip|exact Hlt].
    + (* a repeated push: the position advances *)
      assert (Hpos : pos = i_pos it + 1).
      { destruct (Nat.ltb_spec (i_pos it) (length text)); [|lia]. simpl in Epos. lia. }
      exists (S D). split.
      * apply circ_inv_clear; simpl; [reflexivity|lia|lia|]. rewrite app_length. simpl in *. lia.
      * apply measure_pos; simpl; lia.
  - (* a new label *)
    assert (Hnin : ~ In (i_pos it, length lex1, length (t_push t)) (s_circ s)).
    { intros C. apply existsb_triple in C. congruence. }
    injection Ec as <- <-.
    set (s' := LState _ _ _ _ _).
    assert (Hbase : NoDup (s_circ s') /\ incl (s_circ s') (universe (length text) D) /\
       (forall p n k, In (p, n, k) (s_circ s') -> p <= s_pos s')).
    { cbn [s' s_circ s_pos]. split; [constructor; assumption|]. split.
      - intros x [<-|Hx]; [|apply N2, Hx]. apply in_universe; lia.
      - intros p n k [[= <- <- <-]|Hx]; [lia|]. apply N3 in Hx. lia. }
    destruct Hbase as (B1 & B2 & B3).
    destruct (Nat.eq_dec (i_pos it) (s_pos s)) as [Hip|Hip].
    + exists c. split.
      * unfold circ_inv. repeat split; auto; [cbn [s' s_pos]; lia|].
        destruct always_push; [left; reflexivity|]. right.
        destruct N6 as [C|(M1 & M2 & M3)]; [discriminate|].
        cbn [s' s_pos s_circ s_lex]. rewrite app_length, Hip in *.
        destruct (t_push t) as [|y ys] eqn:Ep.
        -- assert (Hpop : t_pop t = t_pop t0 /\ 0 < t_pop t0 < length (s_lex s)).
           { destruct I2 as [I2|I2]; [congruence|]. split; [|exact I2]. subst t. unfold l_clip.
             destruct (Nat.leb_spec (length (s_lex s)) (t_pop t0)); [lia|].
             rewrite andb_false_r. reflexivity. }
           destruct Hpop as (Hpop & Hpop2). simpl length. rewrite Nat.add_0_r.
           split; [|split].
           ++ intros m H1 H2. right. apply M1; lia.
           ++ intros m H1 [[= <-]|H2]; right; [apply M1; lia|apply M2; assumption].
           ++ intros m H1 [[= <-]|H2]; [lia|]. apply M3 in H2; lia.
        -- destruct ys as [|y2 ys]; [|rewrite <- Hpush in I3; simpl in I3; lia].
           simpl length. split; [|split].
           ++ intros m H1 H2. destruct (Nat.eq_dec m (length lex1)) as [->|Hm]; [left; reflexivity|].
              right. apply M1; lia.
           ++ intros m H1 [H2|H2]; [discriminate|]. right. apply M2; assumption.
           ++ intros m H1 [H2|H2]; [discriminate|]. pose proof (M3 m H1 H2) as M4.
              destruct (Nat.le_gt_cases (length lex1 + 1) m) as [H|H]; [exact H|exfalso].
              apply Hnin. apply M2 in H2; [|exact H1].
              replace (length lex1) with m by lia. exact H2.
      * assert (H' : circ_inv (S D) s').
        { unfold circ_inv. repeat split; auto; [cbn [s' s_pos]; lia|].
          destruct always_push; [left; reflexivity|right].
          cbn [s' s_pos s_circ s_lex]. rewrite app_length.
          assert (Hin : forall m k, S D <= m -> In (i_pos it, m, k)
            ((i_pos it, length lex1, length (t_push t)) :: s_circ s) -> False).
          { intros m k Hm [[= <- <-]|Hx]; [lia|]. apply N2 in Hx. unfold universe in Hx.
            apply in_prod_iff in Hx as [Hx _]. apply in_prod_iff in Hx as [_ Hx].
            apply in_seq in Hx. lia. }
          repeat split; intros m H1; [lia| |]; intros H2; destruct (Hin _ _ H1 H2). }
        apply measure_circ; [symmetry; exact Hip|cbn [s' s_circ]; simpl; lia|].
        eapply circ_len; exact H'.
    + exists (S D). split.
      * unfold circ_inv. repeat split; auto; [cbn [s' s_pos]; lia|].
        destruct always_push; [left; reflexivity|right].
        cbn [s' s_pos s_circ s_lex]. rewrite app_length.
        assert (Hin : forall m k, S D <= m -> In (i_pos it, m, k)
          ((i_pos it, length lex1, length (t_push t)) :: s_circ s) -> False).
        { intros m k Hm [[= <- <-]|Hx]; [lia|]. apply N3 in Hx. lia. }
        repeat split; intros m H1; [lia| |]; intros H2; destruct (Hin _ _ H1 H2).
      * apply measure_pos; cbn [s' s_pos]; lia.
Qed.

Lemma circular_terminates : forall M s c, R s -> circ_inv c s -> measure c s < M ->
  exists n evs, run n s = (evs, None).
Proof.
  induction M as [|M IHM]; intros s c HR Hinv HM; [lia|].
  assert (Hle : s_pos s <= length text) by apply Hinv.
  destruct (last_opt (s_lex s)) as [l|] eqn:El.
  2:{ exists 1, []. simpl. unfold l_step. rewrite El. reflexivity. }
  destruct (HF l (s_pos s) Hle) as [K HK].
  destruct (HP l (s_pos s) Hle) as (Hcl & _ & _).
  assert (Hin : forall d s1, R s1 -> s_lex s1 = s_lex s -> s_pos s1 = s_pos s -> s_circ s1 = s_circ s ->
    K - s_idx s1 <= d -> exists n evs, run n s1 = (evs, None)).
  { induction d as [|d IHd]; intros s1 HR1 E1 E2 E3 Hd.
    - exists 1, []. simpl. unfold l_step. rewrite E1, El, E2.
      rewrite (gen_closed_le _ K _ Hcl HK) by lia. reflexivity.
    - destruct (step s1) as [[ev s2]|] eqn:Es.
      2:{ exists 1, []. simpl. rewrite Es. reflexivity. }
      assert (Hinv1 : circ_inv c s1) by (unfold circ_inv in *; rewrite E1, E2, E3; exact Hinv).
      assert (Hm1 : measure c s1 = measure c s) by (unfold measure; rewrite E2, E3; reflexivity).
      pose proof (R_step _ _ _ HR1 Es) as HR2.
      destruct (step_measure _ _ _ _ HR1 Hinv1 Es) as [(F1 & F2 & F3 & F4)|(c' & Hinv2 & Hm2)].
      + assert (Hd2 : s_idx s1 < K \/ K <= s_idx s1) by lia. destruct Hd2 as [Hd2|Hd2].
        * destruct (IHd s2) as (n & evs & Hn); [exact HR2|congruence|congruence|congruence|lia|].
          exists (S n), (ev ++ evs). simpl. rewrite Es, Hn. reflexivity.
        * exfalso. unfold l_step in Es. rewrite E1, El, E2 in Es.
          rewrite (gen_closed_le _ K _ Hcl HK Hd2) in Es. discriminate.
      + destruct (IHM s2 c') as (n & evs & Hn); [exact HR2|exact Hinv2|lia|].
        exists (S n), (ev ++ evs). simpl. rewrite Es, Hn. reflexivity. }
  apply (Hin (K - s_idx s) s); auto.
Qed.

End Circular.
