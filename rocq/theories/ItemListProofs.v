(** Proofs about grouping the objects of an item list, and about peeking. *)
From Verif Require Import Base ItemListModel ItemListSpec.
From Coq Require Import ZArith ZifyBool Sorted.

Section Proofs.
Variables Name Act Obj : Type.
Variable n_eqb : Name -> Name -> bool.
Variable a_eqb : Act -> Act -> bool.
Hypothesis n_ok : forall a b, n_eqb a b = true <-> a = b.
Hypothesis a_ok : forall a b, a_eqb a b = true <-> a = b.

Lemma index_in_none names : forall i n, index_in n_eqb names i n = None <-> ~ In n names.
Proof.
  induction names as [| m names IH]; intros i n; cbn [index_in In]; [tauto |].
  destruct (index_in n_eqb names (S i) n) as [j |] eqn:E.
  - split; [discriminate |]. intros H. exfalso. assert (X : ~ In n names) by tauto. apply (IH (S i)) in X. congruence.
  - apply IH in E. destruct (n_eqb n m) eqn:E'.
    + apply n_ok in E'. subst m. split; [discriminate | tauto].
    + split; [intros _ | reflexivity]. intros [-> | H]; [| contradiction]. assert (n_eqb n n = true) by now apply n_ok. congruence.
Qed.
Lemma index_in_some names : forall i n j, index_in n_eqb names i n = Some j -> i <= j /\ nth_error names (j - i) = Some n.
Proof.
  induction names as [| m names IH]; intros i n j; cbn [index_in]; [discriminate |].
  destruct (index_in n_eqb names (S i) n) as [k |] eqn:E.
  - intros H. injection H as <-. apply IH in E. destruct E as [H1 H2]. split; [lia |]. replace (k - i) with (S (k - S i)) by lia. exact H2.
  - destruct (n_eqb n m) eqn:E'; [| discriminate]. intros H. injection H as <-. apply n_ok in E'. subst m. rewrite Nat.sub_diag. now split.
Qed.
Lemma index_in_nth names : NoDup names -> forall i n k, nth_error names k = Some n -> index_in n_eqb names i n = Some (i + k).
Proof.
  intros D i n k H. destruct (index_in n_eqb names i n) as [j |] eqn:E.
  - apply index_in_some in E. destruct E as [H1 H2]. f_equal.
    assert (k = j - i); [| lia]. eapply NoDup_nth_error; [exact D | | congruence]. apply nth_error_Some. congruence.
  - apply index_in_none in E. apply nth_error_In in H. contradiction.
Qed.

Lemma set_at_length {T} (l : list T) : forall i x, length (set_at l i x) = length l.
Proof. induction l as [| y l IH]; intros [| i] x; cbn; [reflexivity | reflexivity | reflexivity | now rewrite IH]. Qed.
Lemma set_at_nth {T} (l : list T) : forall i x k, i < length l -> nth_error (set_at l i x) k = if k =? i then Some x else nth_error l k.
Proof.
  induction l as [| y l IH]; intros i x k H; cbn [length] in H; [lia |]. destruct i as [| i], k as [| k]; cbn [set_at nth_error Nat.eqb]; try reflexivity.
  apply IH. lia.
Qed.

(** All places from [i] on are empty. *)
Definition empty_from (g : list (option Obj)) (i : nat) : Prop := forall k, i <= k -> ~ filled g k.

Lemma present_nil (names : list Name) : present names (@nil (option Obj)) = [].
Proof. unfold present. destruct names; reflexivity. Qed.

Lemma present_empty (names : list Name) g : empty_from g 0 -> present names g = [].
Proof.
  revert g. induction names as [| n names IH]; intros g H; [reflexivity |]. destruct g as [| [o |] g]; [reflexivity | |].
  - exfalso. apply (H 0 (le_n 0)). exists o. reflexivity.
  - apply (IH g). intros k _ [o E]. apply (H (S k)); [lia |]. now exists o.
Qed.

Lemma present_set : forall (names : list Name) g i n o, length g = length names -> nth_error names i = Some n -> empty_from g i ->
  present names (set_at g i (Some o)) = present names g ++ [(n, o)].
Proof.
  induction names as [| m names IH]; intros g i n o HL Hn He; [destruct i; discriminate |].
  destruct g as [| x g]; [discriminate |]. destruct i as [| i].
  - cbn in Hn. injection Hn as ->. cbn [set_at].
    assert (x = None) as -> by (destruct x as [y |]; [exfalso; apply (He 0 (le_n 0)); now exists y | reflexivity]).
    unfold present. cbn [combine flat_map fst snd app]. fold (present names g).
    rewrite (present_empty names g); [reflexivity |]. intros k _ [y E]. apply (He (S k)); [lia | now exists y].
  - cbn [set_at]. unfold present. cbn [combine flat_map]. fold (present names (set_at g i (Some o))). fold (present names g).
    rewrite (IH g i n o); [apply app_assoc | now injection HL | exact Hn |]. intros k Hk [y E]. apply (He (S k)); [lia | now exists y].
Qed.

Lemma filled_set g i (o : Obj) k : i < length g -> (filled (set_at g i (Some o)) k <-> k = i \/ filled g k).
Proof.
  intros H. unfold filled. rewrite set_at_nth by exact H. destruct (k =? i) eqn:E.
  - apply Nat.eqb_eq in E. subst k. split; [now left | intros _; now exists o].
  - apply Nat.eqb_neq in E. tauto.
Qed.
Lemma filled_repeat n k : ~ filled (repeat (@None Obj) n) k.
Proof. intros [o E]. apply nth_error_In, repeat_spec in E. discriminate. Qed.

Definition wanted (names : list Name) (l : list (Name * Obj)) : list (Name * Obj) := filter (fun x => existsb (n_eqb (fst x)) names) l.
Lemma wanted_in names n : existsb (n_eqb n) names = true <-> In n names.
Proof.
  rewrite existsb_exists. split; [intros [m [H E]]; apply n_ok in E; now subst m |]. intros H. exists n. split; [exact H | now apply n_ok].
Qed.

(** The state of the loop: the last object of the current group is at [last]. *)
Definition fits (names : list Name) (g : list (option Obj)) (last : option nat) : Prop :=
  length g = length names /\
  match last with
  | None => empty_from g 0
  | Some j => filled g j /\ empty_from g (S j)
  end.

Definition first_filled (g : list (option Obj)) (i : nat) : Prop := filled g i /\ forall k, filled g k -> i <= k.

(** The groups that the loop yields; the first of them goes on from [g]: its first filled place is that of [g], if that has one. *)
Lemma grouped_ok names : NoDup names -> forall l g last, fits names g last ->
  let gs := grouped_loop n_eqb names g last l in
  Forall (fun g => length g = length names) gs /\
  concat (map (present names) gs) = present names g ++ wanted names l /\
  Forall (fun g => exists i, filled g i) gs /\
  no_too_early gs /\
  match gs with
  | [] => last = None
  | h :: _ => forall i, first_filled g i -> first_filled h i
  end.
Proof.
  intros D. induction l as [| [n o] l IH]; intros g last F; cbn zeta.
  - cbn [grouped_loop wanted filter]. rewrite app_nil_r. destruct F as [FL F]. destruct last as [j |].
    + cbn [map concat no_too_early]. rewrite app_nil_r. split; [now constructor |]. split; [reflexivity |].
      split; [constructor; [exists j; apply F | constructor] |]. split; [exact I | auto].
    + cbn [map concat no_too_early]. rewrite (present_empty names g F). split; [constructor |]. split; [reflexivity |]. split; [constructor |]. now split.
  - cbn [grouped_loop wanted filter fst]. destruct (index_in n_eqb names 0 n) as [i |] eqn:E.
    + apply index_in_some in E. destruct E as [_ E]. rewrite Nat.sub_0_r in E.
      replace (existsb (n_eqb n) names) with true by (symmetry; apply wanted_in; exact (nth_error_In _ _ E)).
      assert (Hi : i < length names) by (apply nth_error_Some; congruence). fold (wanted names l).
      destruct (match last with Some j => i <=? j | None => false end) eqn:C.
      * destruct last as [j |]; [| discriminate]. apply Nat.leb_le in C.
        set (h := set_at (repeat None (length names)) i (Some o)).
        assert (Hh : fits names h (Some i)).
        { split; [unfold h; now rewrite set_at_length, repeat_length |]. split.
          - apply filled_set; [now rewrite repeat_length | now left].
          - intros k Hk X. apply filled_set in X; [| now rewrite repeat_length]. destruct X as [-> | X]; [lia |]. now apply filled_repeat in X. }
        assert (Hf : first_filled h i).
        { split; [apply Hh |]. intros k X. apply filled_set in X; [| now rewrite repeat_length]. destruct X as [-> | X]; [lia |]. now apply filled_repeat in X. }
        destruct (IH h (Some i) Hh) as [G1 [G2 [G3 [G4 G5]]]]. destruct F as [FL [Fj Fe]].
        split; [constructor; [exact FL | exact G1] |]. split; [| split; [| split]].
        -- cbn [map concat]. rewrite G2. f_equal. unfold h.
           rewrite (present_set names _ i n o); [| apply repeat_length | exact E | intros k _; apply filled_repeat].
           rewrite present_empty by (intros k _; apply filled_repeat). reflexivity.
        -- constructor; [now exists j | exact G3].
        -- destruct (grouped_loop n_eqb names h (Some i) l) as [| h' gs] eqn:EG; [discriminate |]. split; [| exact G4].
           destruct (G5 i Hf) as [X Y]. exists i. split; [exact X |]. split; [exact Y |]. exists j. split; [exact Fj | exact C].
        -- auto.
      * assert (Hg : empty_from g i).
        { destruct F as [_ F]. destruct last as [j |]; [apply Nat.leb_gt in C; destruct F as [_ F]; intros k Hk; apply F; lia | intros k _; apply F; lia]. }
        assert (FL : length g = length names) by apply F.
        set (h := set_at g i (Some o)).
        assert (Hh : fits names h (Some i)).
        { split; [unfold h; now rewrite set_at_length |]. split.
          - apply filled_set; [lia | now left].
          - intros k Hk X. apply filled_set in X; [| lia]. destruct X as [-> | X]; [lia |]. revert X. apply Hg. lia. }
        destruct (IH h (Some i) Hh) as [G1 [G2 [G3 [G4 G5]]]].
        split; [exact G1 |]. split; [| split; [exact G3 | split; [exact G4 |]]].
        -- rewrite G2. unfold h. rewrite (present_set names g i n o FL E Hg), <- app_assoc. reflexivity.
        -- destruct (grouped_loop n_eqb names h (Some i) l) as [| h' gs]; [discriminate |].
           intros k [Hk1 Hk2]. apply G5. split; [apply filled_set; [lia | now right] |].
           intros m X. apply filled_set in X; [| lia]. destruct X as [-> | X]; [| now apply Hk2].
           destruct (Nat.le_gt_cases k i) as [Y | Y]; [exact Y |]. exfalso. apply (Hg k); [lia | exact Hk1].
    + apply index_in_none in E. replace (existsb (n_eqb n) names) with false.
      * apply (IH g last F).
      * symmetry. apply not_true_is_false. now rewrite wanted_in.
Qed.

Theorem grouped_objects_ok names (l : list (entry Name Act Obj)) : NoDup names ->
  grouping names (filter (fun x => existsb (n_eqb (fst x)) names) (il_items l)) (grouped_objects n_eqb names l).
Proof.
  intros D. unfold grouped_objects.
  destruct (grouped_ok names D (il_items l) (repeat None (length names)) None) as [G1 [G2 [G3 [G4 _]]]].
  { split; [apply repeat_length |]. intros k _. apply filled_repeat. }
  constructor; [exact G1 | | exact G3 | exact G4].
  rewrite G2, present_empty by (intros k _; apply filled_repeat). reflexivity.
Qed.

(** * There is only one such grouping *)

Lemma present_fst (names : list Name) (g : list (option Obj)) : forall n, In n (map fst (present names g)) -> In n names.
Proof.
  revert g. induction names as [| m names IH]; intros g n; [contradiction |]. destruct g as [| [o |] g]; [contradiction | |]; cbn [present combine flat_map].
  - unfold present. cbn [combine flat_map fst snd app map In]. intros [<- | H]; [now left | right; now apply (IH g)].
  - unfold present. cbn [combine flat_map fst snd app]. intros H. right. now apply (IH g).
Qed.

(** A group is determined by what is present in it. *)
Lemma present_inj (names : list Name) : NoDup names -> forall g h : list (option Obj), length g = length names -> length h = length names ->
  present names g = present names h -> g = h.
Proof.
  induction 1 as [| n names N D IH]; intros g h HG HH E.
  - destruct g, h; try discriminate. reflexivity.
  - destruct g as [| x g]; [discriminate |]. destruct h as [| y h]; [discriminate |].
    injection HG as HG. injection HH as HH. unfold present in E. cbn [combine flat_map fst snd] in E. fold (present names g) in E. fold (present names h) in E.
    destruct x as [o |], y as [o' |]; cbn [app] in E.
    + injection E as -> E. f_equal. now apply IH.
    + exfalso. apply N. apply (present_fst names h). rewrite <- E. now left.
    + exfalso. apply N. apply (present_fst names g). rewrite E. now left.
    + f_equal. now apply IH.
Qed.

(** The names of what is present in a group are in the order of the names: as places, increasing. *)
Definition place (names : list Name) (n : Name) : nat := match index_in n_eqb names 0 n with Some i => i | None => 0 end.
Lemma present_nth (names : list Name) : forall (g : list (option Obj)) n o, In (n, o) (present names g) <-> exists i, nth_error names i = Some n /\ nth_error g i = Some (Some o).
Proof.
  induction names as [| m names IH]; intros g n o; [split; [contradiction | intros [[| i] [E _]]; discriminate] |].
  destruct g as [| x g].
  - split; [contradiction |]. intros [[| i] [_ E]]; discriminate.
  - unfold present. cbn [combine flat_map fst snd]. fold (present names g). rewrite in_app_iff, IH. split.
    + intros [H | [i [E1 E2]]]; [| now exists (S i)]. destruct x as [y |]; [| contradiction]. destruct H as [H | []]. injection H as -> ->. exists 0. now split.
    + intros [[| i] [E1 E2]]; [| right; now exists i]. left. cbn in E1, E2. injection E1 as ->. injection E2 as ->. now left.
Qed.
Lemma present_sorted names : NoDup names -> forall g : list (option Obj), StronglySorted lt (map (fun x => place names (fst x)) (present names g)).
Proof.
  intros D.
  assert (X : forall done rest (g : list (option Obj)), names = done ++ rest ->
    StronglySorted lt (map (fun x => place names (fst x)) (present rest g)) /\
    Forall (fun x => length done <= place names (fst x)) (present rest g)).
  { intros done rest. revert done. induction rest as [| n rest IH]; intros done g E; [split; constructor |].
    destruct g as [| x g]; [split; constructor |].
    destruct (IH (done ++ [n]) g) as [S1 S2]; [now rewrite <- app_assoc |]. rewrite app_length in S2. cbn [length] in S2.
    assert (P : place names n = length done).
    { unfold place. rewrite (index_in_nth names D 0 n (length done)); [reflexivity |]. rewrite E, nth_error_app2, Nat.sub_diag by lia. reflexivity. }
    unfold present. cbn [combine flat_map fst snd]. fold (present rest g). destruct x as [o |]; cbn [app map fst].
    - split; [constructor; [exact S1 |] | constructor; [cbn [fst]; lia |]].
      + rewrite Forall_map. eapply Forall_impl; [| exact S2]. intros y Hy. cbn beta in *. lia.
      + eapply Forall_impl; [| exact S2]. intros y Hy. cbn beta in *. lia.
    - split; [exact S1 |]. eapply Forall_impl; [| exact S2]. intros y Hy. cbn beta in *. lia. }
  intros g. apply (X [] names g eq_refl).
Qed.

Lemma filled_present (names : list Name) : forall (g : list (option Obj)) i, length g = length names -> (filled g i <-> exists n o, nth_error names i = Some n /\ In (n, o) (present names g) /\ nth_error g i = Some (Some o)).
Proof.
  intros g i HL. split.
  - intros [o E]. destruct (nth_error names i) as [n |] eqn:En.
    + exists n, o. split; [reflexivity |]. split; [apply present_nth; now exists i | exact E].
    + apply nth_error_None in En. assert (i < length g) by (apply nth_error_Some; congruence). lia.
  - intros [n [o [_ [_ E]]]]. now exists o.
Qed.
Lemma place_filled names (D : NoDup names) (g : list (option Obj)) n o : In (n, o) (present names g) -> filled g (place names n).
Proof.
  intros H. apply present_nth in H. destruct H as [i [E1 E2]]. unfold place. rewrite (index_in_nth names D 0 n i E1). now exists o.
Qed.
Lemma filled_place names (D : NoDup names) (g : list (option Obj)) i : length g = length names -> filled g i -> exists n o, In (n, o) (present names g) /\ place names n = i.
Proof.
  intros HL H. apply (filled_present names g i HL) in H. destruct H as [n [o [E [H _]]]]. exists n, o. split; [exact H |].
  unfold place. now rewrite (index_in_nth names D 0 n i E).
Qed.

(** Two lists that begin the same: one is the beginning of the other. *)
Lemma app_common {T} : forall (a b c d : list T), a ++ b = c ++ d -> (exists e, c = a ++ e /\ b = e ++ d) \/ (exists e, a = c ++ e /\ d = e ++ b /\ e <> []).
Proof.
  induction a as [| x a IH]; intros b c d E; [left; now exists c |]. destruct c as [| y c].
  - right. exists (x :: a). repeat split; [symmetry; exact E | discriminate].
  - cbn [app] in E. injection E as -> E. destruct (IH b c d E) as [[e [-> ->]] | [e [-> [-> N]]]]; [left; now exists e | right; now exists e].
Qed.

Lemma first_group (names : list Name) (D : NoDup names) (g : list (option Obj)) gs h hs rest : grouping names rest (g :: gs) -> grouping names rest (h :: hs) ->
  (exists e, present names h = present names g ++ e) -> present names g = present names h.
Proof.
  intros [W1 A1 S1 L1] [W2 A2 S2 L2] [e E]. cbn [map concat] in A1, A2. rewrite E in A2. destruct e as [| [n o] e]; [rewrite E; now rewrite app_nil_r |].
  exfalso. rewrite <- A1, <- app_assoc in A2. apply app_inv_head in A2.
  inversion W1 as [| ? ? Wg Wgs]; subst. inversion W2 as [| ? ? Wh Whs]; subst.
  destruct gs as [| g2 gs]; [discriminate |]. destruct L1 as [[i [Hi [Hmin [j [Hj Hij]]]]] _].
  (* the first of g2 is (n, o) *)
  cbn [map concat] in A2. inversion S1 as [| ? ? _ S1']; subst. inversion S1' as [| ? ? Sg2 _]; subst. inversion Wgs as [| ? ? Wg2 _]; subst.
  destruct (present names g2) as [| [n' o'] pr] eqn:Eg2.
  { destruct Sg2 as [k Hk]. destruct (filled_place names D g2 k Wg2 Hk) as [m [u [X _]]]. rewrite Eg2 in X. contradiction. }
  cbn [app] in A2. injection A2 as -> -> _.
  (* so place n' is the first filled of g2, hence i *)
  assert (F2 : filled g2 (place names n')) by (apply (place_filled names D g2 n' o'); rewrite Eg2; now left).
  assert (Pi : place names n' = i).
  { apply Nat.le_antisymm; [| now apply Hmin].
    destruct (filled_place names D g2 i Wg2 Hi) as [m [u [X <-]]]. rewrite Eg2 in X. destruct X as [X | X]; [injection X as -> ->; lia |].
    pose proof (present_sorted names D g2) as PS. rewrite Eg2 in PS. cbn [map fst] in PS. inversion PS as [| ? ? _ PF]; subst. rewrite Forall_map, Forall_forall in PF.
    specialize (PF _ X). cbn [fst] in PF. lia. }
  (* but in h, (n', o') comes after everything in g *)
  destruct (filled_place names D g j Wg Hj) as [m [u [X Em]]].
  pose proof (present_sorted names D h) as PS. rewrite E, map_app in PS. cbn [map fst] in PS.
  assert (Y : forall a b, StronglySorted lt (a ++ b) -> forall x y, In x a -> In y b -> x < y).
  { clear. induction a as [| z a IH]; intros b Hs x y; [contradiction |]. inversion Hs as [| ? ? H1 H2]; subst. intros [<- | Hx] Hy; [| now apply (IH b)].
    rewrite Forall_forall in H2. apply H2. apply in_or_app. now right. }
  specialize (Y _ _ PS (place names m) (place names n')). enough (place names m < place names n') by lia.
  apply Y; [| now left]. apply in_map_iff. exists (m, u). now split.
Qed.

Theorem grouping_unique (names : list Name) : NoDup names -> forall (gs hs : list (list (option Obj))) rest, grouping names rest gs -> grouping names rest hs -> gs = hs.
Proof.
  intros D. induction gs as [| g gs IH]; intros hs rest G H.
  - destruct hs as [| h hs]; [reflexivity |]. exfalso. destruct G as [_ A1 _ _], H as [W2 A2 S2 _]. cbn in A1. rewrite <- A1 in A2. clear A1.
    cbn [map concat] in A2. apply app_eq_nil in A2. destruct A2 as [A2 _]. inversion S2 as [| ? ? [i Hi] _]; subst. inversion W2 as [| ? ? Wh _]; subst.
    destruct (filled_place names D h i Wh Hi) as [n [o [X _]]]. rewrite A2 in X. contradiction.
  - destruct hs as [| h hs].
    + exfalso. destruct H as [_ A1 _ _], G as [W2 A2 S2 _]. cbn in A1. rewrite <- A1 in A2. clear A1.
      cbn [map concat] in A2. apply app_eq_nil in A2. destruct A2 as [A2 _]. inversion S2 as [| ? ? [i Hi] _]; subst. inversion W2 as [| ? ? Wh _]; subst.
      destruct (filled_place names D g i Wh Hi) as [n [o [X _]]]. rewrite A2 in X. contradiction.
    + assert (P : present names g = present names h).
      { pose proof (gr_all _ _ _ _ _ G) as A1. pose proof (gr_all _ _ _ _ _ H) as A2. cbn [map concat] in A1, A2. rewrite <- A2 in A1.
        destruct (app_common _ _ _ _ A1) as [[e [E _]] | [e [E [_ _]]]].
        - apply (first_group names D g gs h hs rest G H). now exists e.
        - symmetry. apply (first_group names D h hs g gs rest H G). now exists e. }
      destruct G as [W1 A1 S1 L1], H as [W2 A2 S2 L2]. inversion W1; subst. inversion W2; subst. inversion S1; subst. inversion S2; subst.
      assert (g = h) as <- by (eapply present_inj; eassumption). f_equal.
      cbn [map concat] in A2. apply app_inv_head in A2. eapply IH.
      * constructor; [assumption | reflexivity | assumption |]. destruct gs; [exact I | apply L1].
      * constructor; [assumption | exact A2 | assumption |]. destruct hs; [exact I | apply L2].
Qed.

(** * Peeking *)

Lemma values_eqb (a b : list (value Name Act)) : list_eqb (value_eqb n_eqb a_eqb) a b = true <-> a = b.
Proof.
  revert b. induction a as [| x a IH]; intros [| y b]; cbn [list_eqb]; try (split; [discriminate | discriminate]); [tauto |].
  rewrite andb_true_iff, IH. assert (X : value_eqb n_eqb a_eqb x y = true <-> x = y).
  { destruct x, y; cbn; rewrite ?a_ok, ?n_ok; split; congruence. }
  rewrite X. split; [intros [-> ->]; reflexivity | intros E; injection E as -> ->; now split].
Qed.

Theorem peek_ok (l : list (entry Name Act Obj)) index values :
  peek n_eqb a_eqb l index values = true <->
  exists a b, map key_of l = a ++ values ++ b /\ Z.of_nat (length a) = (if (index <? 0)%Z then index + Z.of_nat (length l) else index)%Z.
Proof.
  assert (X : forall i, (if length l <? i + length values then false
       else list_eqb (value_eqb n_eqb a_eqb) (map key_of (firstn (i + length values - i) (skipn i l))) values) = true <->
     exists a b, map key_of l = a ++ values ++ b /\ length a = i).
  { intros i. destruct (length l <? i + length values) eqn:E.
    - split; [discriminate |]. intros [a [b [H1 H2]]]. apply (f_equal (@length _)) in H1. rewrite map_length, !app_length in H1. lia.
    - rewrite values_eqb. replace (i + length values - i) with (length values) by lia. split.
      + intros H. exists (map key_of (firstn i l)), (map key_of (skipn (length values) (skipn i l))).
        rewrite <- H at 1. rewrite <- !map_app, firstn_skipn, firstn_skipn. split; [reflexivity |]. rewrite map_length, firstn_length. lia.
      + intros [a [b [H1 H2]]]. rewrite <- firstn_map, <- skipn_map, H1. subst i.
        rewrite skipn_app, skipn_all, Nat.sub_diag. cbn [skipn app]. rewrite firstn_app, firstn_all, Nat.sub_diag. cbn. apply app_nil_r. }
  unfold peek. destruct (index <? 0)%Z eqn:E.
  - destruct (index + Z.of_nat (length l) <? 0)%Z eqn:E'.
    + split; [discriminate |]. intros [a [b [_ H]]]. lia.
    + rewrite X. split; intros [a [b [H1 H2]]]; exists a, b; (split; [exact H1 | lia]).
  - rewrite X. split; intros [a [b [H1 H2]]]; exists a, b; (split; [exact H1 | lia]).
Qed.

End Proofs.
