(** Proofs about slices of nodes and of selections. *)
From Verif Require Import Base LexerModel TreeModel TreeSpec QueryModel QuerySpec QueryProofs QueryNavModel QueryNavProofs.
From Coq Require Import ZArith ZifyBool.

Lemma sorted_unique (a b : list nat) : StronglySorted lt a -> StronglySorted lt b -> (forall k, In k a <-> In k b) -> a = b.
Proof.
  revert b. induction a as [| x a IH]; intros b Ha Hb H.
  - destruct b as [| y b]; [reflexivity |]. destruct (proj2 (H y) (or_introl eq_refl)).
  - inversion Ha as [| x' a' Sa Fa]; subst. destruct b as [| y b]; [destruct (proj1 (H x) (or_introl eq_refl)) |].
    inversion Hb as [| y' b' Sb Fb]; subst. rewrite Forall_forall in Fa, Fb.
    assert (x = y) as <-.
    { destruct (proj1 (H x) (or_introl eq_refl)) as [E | Hx]; [now symmetry |].
      destruct (proj2 (H y) (or_introl eq_refl)) as [E | Hy]; [exact E |].
      specialize (Fa _ Hy). specialize (Fb _ Hx). lia. }
    f_equal. apply IH; [exact Sa | exact Sb |]. intros k. split; intros Hk.
    + destruct (proj1 (H k) (or_intror Hk)) as [<- | X]; [specialize (Fa _ Hk); lia | exact X].
    + destruct (proj2 (H k) (or_intror Hk)) as [<- | X]; [specialize (Fb _ Hk); lia | exact X].
Qed.
Lemma seq_sorted n : forall j, StronglySorted lt (seq j n).
Proof. induction n as [| n IH]; intros j; [constructor |]. cbn [seq]. constructor; [apply IH |]. apply Forall_forall. intros k Hk. apply in_seq in Hk. lia. Qed.

Local Open Scope Z_scope.
Lemma count_up_in step : 0 < step -> forall fuel a b, b - a <= Z.of_nat fuel -> forall k,
  (In k (count_up fuel a b step) <-> exists m, 0 <= m /\ k = a + m * step /\ k < b).
Proof.
  intros Hs. induction fuel as [| fuel IH]; intros a b Hf k; cbn [count_up].
  - split; [contradiction |]. intros [m [H [-> H']]]. nia.
  - replace (step <? 0) with false by lia. destruct (a <? b) eqn:E.
    + cbn [In]. rewrite IH by lia. split.
      * intros [<- | [m [H [-> H']]]]; [exists 0; lia | exists (m + 1); lia].
      * intros [m [H [-> H']]]. destruct (Z.eq_dec m 0) as [-> | N]; [left; lia | right; exists (m - 1); lia].
    + split; [contradiction |]. intros [m [H [-> H']]]. nia.
Qed.
Lemma count_up_sorted step : 0 < step -> forall fuel a b, 0 <= a -> StronglySorted lt (map Z.to_nat (count_up fuel a b step)) /\
  forall k, In k (count_up fuel a b step) -> a <= k.
Proof.
  intros Hs. induction fuel as [| fuel IH]; intros a b Ha; cbn [count_up]; [split; [constructor | contradiction] |].
  replace (step <? 0) with false by lia. destruct (a <? b); [| split; [constructor | contradiction]].
  destruct (IH (a + step) b) as [S1 S2]; [lia |]. split.
  - cbn [map]. constructor; [exact S1 |]. apply Forall_forall. intros k Hk. apply in_map_iff in Hk. destruct Hk as [z [<- Hz]]. specialize (S2 _ Hz). lia.
  - intros k [<- | Hk]; [lia |]. specialize (S2 _ Hk). lia.
Qed.

Lemma slice_up len start stop s : 0 < s ->
  let a := slice_bound (Z.of_nat len) s 0 start in let b := slice_bound (Z.of_nat len) s (Z.of_nat len) stop in
  slice_indices len start stop (Some s) =
  Some (filter (fun k => (a <=? Z.of_nat k) && (Z.of_nat k <? b) && ((Z.of_nat k - a) mod s =? 0)) (seq 0 len)).
Proof.
  intros Hs a b. unfold slice_indices. replace (s =? 0) with false by lia. replace (s <? 0) with false by lia. fold a b. f_equal.
  assert (Ba : 0 <= a).
  { subst a. unfold slice_bound. replace (s <? 0) with false by lia. destruct start as [z |]; [| lia]. destruct (z <? 0) eqn:E; lia. }
  assert (Bb : b <= Z.of_nat len).
  { subst b. unfold slice_bound. replace (s <? 0) with false by lia. destruct stop as [z |]; [| lia]. destruct (z <? 0) eqn:E; lia. }
  apply sorted_unique; [now apply count_up_sorted | apply sorted_filter, seq_sorted |]. intros k. rewrite in_map_iff, filter_In, in_seq. split.
  - intros [z [<- Hz]]. apply count_up_in in Hz; [| exact Hs | lia]. destruct Hz as [m [Hm [-> Hz]]]. rewrite Z2Nat.id by nia.
    split; [nia |]. apply andb_true_iff. split; [nia |]. apply Z.eqb_eq. replace (a + m * s - a) with (m * s) by lia. apply Z_mod_mult.
  - intros [H1 H2]. exists (Z.of_nat k). split; [apply Nat2Z.id |]. apply count_up_in; [exact Hs | lia |].
    assert (M : (Z.of_nat k - a) mod s = 0) by lia. exists ((Z.of_nat k - a) / s).
    pose proof (Z_div_mod_eq_full (Z.of_nat k - a) s) as D. rewrite M in D. split; [apply Z.div_pos; lia | nia].
Qed.
Lemma slice_one len start stop : 
  let a := slice_bound (Z.of_nat len) 1 0 start in let b := slice_bound (Z.of_nat len) 1 (Z.of_nat len) stop in
  slice_indices len start stop None = Some (filter (fun k => (a <=? Z.of_nat k) && (Z.of_nat k <? b)) (seq 0 len)).
Proof.
  intros a b. change (slice_indices len start stop None) with (slice_indices len start stop (Some 1)). rewrite slice_up by lia. f_equal.
  apply filter_ext. intros k. fold a b. rewrite Z.mod_1_r. cbn. apply andb_true_r.
Qed.

Lemma slice_down len : slice_indices len None None (Some (-1)) = Some (rev (seq 0 len)).
Proof.
  unfold slice_indices. cbn [Z.eqb Z.ltb Z.compare slice_bound]. f_equal.
  induction len as [| n IH]; [reflexivity |]. rewrite seq_S, rev_app_distr. cbn [rev app].
  replace (Z.of_nat (S n) - 1) with (Z.of_nat n) by lia. cbn [count_up]. replace (-1 <? Z.of_nat n) with true by lia. cbn [map Z.ltb Z.compare].
  replace (0 + n)%nat with n by lia. f_equal; [lia |]. replace (Z.of_nat n + -1) with (Z.of_nat n - 1) by lia. exact IH.
Qed.

Ltac by_members := apply sorted_unique; [repeat (apply sorted_filter || apply seq_sorted) | repeat (apply sorted_filter || apply seq_sorted) |];
  let k := fresh "k" in intros k; rewrite ?filter_In, ?in_seq.

Lemma filter_split (p : nat -> bool) l : StronglySorted lt l -> (forall x y, (x < y)%nat -> p y = true -> p x = true) ->
  filter p l ++ filter (fun k => negb (p k)) l = l.
Proof.
  intros S1 D. induction S1 as [| x l Sl IH Fx]; [reflexivity |]. cbn [filter]. destruct (p x) eqn:E.
  - cbn [negb app]. now rewrite IH.
  - cbn [negb]. replace (filter p l) with (@nil nat).
    + cbn [app]. f_equal. rewrite <- IH at 2. replace (filter p l) with (@nil nat); [reflexivity |].
      symmetry. rewrite Forall_forall in Fx. clear IH Sl. induction l as [| y l IHl]; [reflexivity |]. cbn [filter].
      destruct (p y) eqn:E'; [rewrite (D x y (Fx y (or_introl eq_refl)) E') in E; discriminate |]. apply IHl. intros z Hz. apply Fx. now right.
    + symmetry. rewrite Forall_forall in Fx. clear IH Sl. induction l as [| y l IHl]; [reflexivity |]. cbn [filter].
      destruct (p y) eqn:E'; [rewrite (D x y (Fx y (or_introl eq_refl)) E') in E; discriminate |]. apply IHl. intros z Hz. apply Fx. now right.
Qed.

Theorem slices_ok len :
  slice_indices len None None None = Some (seq 0 len) /\
  slice_indices len None None (Some (-1)) = Some (rev (seq 0 len)) /\
  (forall i, exists a b, slice_indices len None (Some i) None = Some a /\ slice_indices len (Some i) None None = Some b /\ a ++ b = seq 0 len) /\
  (forall i j, (i <= j <= len)%nat -> slice_indices len (Some (Z.of_nat i)) (Some (Z.of_nat j)) None = Some (seq i (j - i))) /\
  (forall i, (0 < i <= len)%nat -> slice_indices len (Some (- Z.of_nat i)) None None = Some (seq (len - i) i) /\
                                   slice_indices len None (Some (- Z.of_nat i)) None = Some (seq 0 (len - i))) /\
  (forall i j s, (0 < s)%nat -> slice_indices len (Some (Z.of_nat i)) (Some (Z.of_nat j)) (Some (Z.of_nat s)) =
     Some (filter (fun k => (i <=? k)%nat && (k <? j)%nat && ((k - i) mod s =? 0)%nat) (seq 0 len))) /\
  (forall a b, slice_indices len a b (Some 0) = None).
Proof.
  split; [| split; [apply slice_down |]; split; [| split; [| split; [| split]]]].
  - rewrite slice_one. f_equal. cbn [slice_bound]. by_members. lia.
  - intros i. rewrite !slice_one. eexists _, _. split; [reflexivity |]. split; [reflexivity |].
    set (c := slice_bound (Z.of_nat len) 1 0 (Some i)). change (slice_bound (Z.of_nat len) 1 (Z.of_nat len) (Some i)) with c. cbn [slice_bound].
    rewrite <- (filter_split (fun k => Z.of_nat k <? c) (seq 0 len)) at 3; [| apply seq_sorted | intros; lia].
    f_equal; apply sorted_unique; try (apply sorted_filter, seq_sorted); intros k; rewrite !filter_In, in_seq; clearbody c; lia.
  - intros i j H. rewrite slice_one. f_equal. unfold slice_bound. cbn [Z.ltb Z.compare].
    replace (Z.of_nat i <? 0) with false by lia. replace (Z.of_nat j <? 0) with false by lia. by_members. lia.
  - intros i H. rewrite !slice_one. unfold slice_bound. cbn [Z.ltb Z.compare]. replace (- Z.of_nat i <? 0) with true by lia.
    split; f_equal; by_members; lia.
  - intros i j s Hs. rewrite slice_up by lia. f_equal. unfold slice_bound. replace (Z.of_nat s <? 0) with false by lia.
    replace (Z.of_nat i <? 0) with false by lia. replace (Z.of_nat j <? 0) with false by lia.
    apply sorted_unique; try (apply sorted_filter, seq_sorted). intros k. rewrite !filter_In, !in_seq.
    destruct (Nat.le_gt_cases (i + 1) (k + 1)) as [Hk | Hk].
    + destruct (Nat.le_gt_cases i len) as [Hi | Hi]; [| lia].
      replace (Z.min (Z.of_nat i) (Z.of_nat len)) with (Z.of_nat i) by lia.
      replace (Z.of_nat k - Z.of_nat i) with (Z.of_nat (k - i)) by lia. rewrite <- Nat2Z.inj_mod. lia.
    + lia.
  - reflexivity.
Qed.
Local Close Scope Z_scope.

(** * Slices of selections *)

Lemma islice_ok step (Hs : 0 < step) : forall ns skip left j,
  islice skip left step ns =
  map snd (filter (fun x => (j + skip <=? fst x) && ((fst x - (j + skip)) mod step =? 0) && match left with Some m => fst x <? j + m | None => true end)
    (combine (seq j (length ns)) ns)).
Proof.
  induction ns as [| n ns IH]; intros skip left j.
  - cbn. destruct left as [[| m] |]; reflexivity.
  - cbn [length seq combine]. destruct left as [[| m] |].
    + cbn [islice]. replace (filter _ _) with (@nil (nat * path)); [reflexivity |]. symmetry. clear IH.
      assert (X : forall ns i, j <= i -> filter (fun x : nat * path => (j + skip <=? fst x) && ((fst x - (j + skip)) mod step =? 0) && (fst x <? j + 0)) (combine (seq i (length ns)) ns) = []).
      { clear. induction ns as [| n ns IH]; intros i Hi; [reflexivity |]. cbn [length seq combine filter fst].
        replace (i <? j + 0) with false by lia. rewrite andb_false_r. apply IH. lia. }
      exact (X (n :: ns) j (le_n j)).
    + cbn [islice option_map pred filter fst]. replace (j <? j + S m) with true by lia. rewrite andb_true_r. destruct skip as [| skip].
      * replace (j + 0 <=? j) with true by lia. replace (j - (j + 0)) with 0 by lia. rewrite Nat.mod_0_l by lia. cbn [andb Nat.eqb map snd]. f_equal.
        rewrite (IH (step - 1) (Some m) (S j)). f_equal. apply filter_ext_in. intros [k x] Hk. apply in_combine_l, in_seq in Hk. cbn [fst].
        replace (S j + (step - 1)) with (j + step) by lia. rewrite Nat.add_0_r. replace (j + S m) with (S j + m) by lia. f_equal.
        destruct (Nat.le_gt_cases (j + step) k) as [H | H].
        -- replace (k - j) with ((k - (j + step)) + 1 * step) by lia. rewrite Nat.mod_add by lia. lia.
        -- rewrite (Nat.mod_small (k - j)) by lia. lia.
      * replace (j + S skip <=? j) with false by lia. cbn [andb]. rewrite (IH skip (Some m) (S j)). f_equal. apply filter_ext. intros [k x]. cbn [fst].
        replace (S j + skip) with (j + S skip) by lia. replace (S j + m) with (j + S m) by lia. reflexivity.
    + cbn [islice option_map filter fst]. rewrite andb_true_r. destruct skip as [| skip].
      * replace (j + 0 <=? j) with true by lia. replace (j - (j + 0)) with 0 by lia. rewrite Nat.mod_0_l by lia. cbn [andb Nat.eqb map snd]. f_equal.
        rewrite (IH (step - 1) None (S j)). f_equal. apply filter_ext_in. intros [k x] Hk. apply in_combine_l, in_seq in Hk. cbn [fst].
        replace (S j + (step - 1)) with (j + step) by lia. rewrite Nat.add_0_r. f_equal.
        destruct (Nat.le_gt_cases (j + step) k) as [H | H].
        -- replace (k - j) with ((k - (j + step)) + 1 * step) by lia. rewrite Nat.mod_add by lia. lia.
        -- rewrite (Nat.mod_small (k - j)) by lia. lia.
      * replace (j + S skip <=? j) with false by lia. cbn [andb]. rewrite (IH skip None (S j)). f_equal. apply filter_ext. intros [k x]. cbn [fst].
        replace (S j + skip) with (j + S skip) by lia. reflexivity.
Qed.
