(** Proofs about the registry. *)
From Verif Require Import Base BaseFacts RegistryModel RegistrySpec.
From Coq Require Import Permutation Sorted.

Lemma str_dec (a b : str) : {a = b} + {a <> b}.
Proof. destruct (str_eqb a b) eqn:E; [left; apply str_eqb_spec; exact E|right; apply str_eqb_false; exact E]. Qed.

(** * Dictionaries *)
Section Dict.
Context {V : Type}.
Implicit Types (d : list (str * V)) (k : str) (v : V).

Lemma dict_get_in d k v : dict_get k d = Some v -> In (k, v) d.
Proof.
  induction d as [|[k' x] d IH]; cbn [dict_get]; [discriminate|]. destruct (str_eqb k' k) eqn:E.
  - apply str_eqb_spec in E. intros [= ->]. left. congruence.
  - right. auto.
Qed.
Lemma dict_get_none d k : dict_get k d = None <-> ~ In k (map fst d).
Proof.
  induction d as [|[k' x] d IH]; cbn [dict_get map fst In]; [tauto|]. destruct (str_eqb k' k) eqn:E.
  - apply str_eqb_spec in E. split; [discriminate|]. tauto.
  - apply str_eqb_false in E. rewrite IH. tauto.
Qed.
Lemma dict_get_nodup d k v : NoDup (map fst d) -> In (k, v) d -> dict_get k d = Some v.
Proof.
  induction d as [|[k' x] d IH]; cbn [dict_get map fst]; intros Hn H; [destruct H|]. inversion Hn as [|? ? Hk Hd]; subst. destruct H as [[= -> ->]|H].
  - rewrite str_eqb_refl. reflexivity.
  - destruct (str_eqb k' k) eqn:E; [|auto]. apply str_eqb_spec in E. subst k'. exfalso. apply Hk. exact (in_map fst _ _ H).
Qed.
Lemma dict_set_get d k v k' : dict_get k' (dict_set k v d) = if str_eqb k k' then Some v else dict_get k' d.
Proof.
  induction d as [|[q x] d IH]; cbn [dict_set dict_get].
  - reflexivity.
  - destruct (str_eqb q k) eqn:E; cbn [dict_get].
    + apply str_eqb_spec in E. subst q. destruct (str_eqb k k'); reflexivity.
    + rewrite IH. destruct (str_eqb q k') eqn:E1; [|reflexivity]. apply str_eqb_spec in E1. subst q. apply str_eqb_false in E.
      destruct (str_eqb k k') eqn:E2; [apply str_eqb_spec in E2; congruence|reflexivity].
Qed.
Lemma dict_set_keys d k v : map fst (dict_set k v d) = if existsb (str_eqb k) (map fst d) then map fst d else map fst d ++ [k].
Proof.
  induction d as [|[q x] d IH]; cbn [dict_set map fst existsb]; [reflexivity|]. destruct (str_eqb q k) eqn:E; cbn [map fst].
  - apply str_eqb_spec in E. subst q. rewrite str_eqb_refl. reflexivity.
  - rewrite IH. assert (E' : str_eqb k q = false) by (apply str_eqb_false; apply str_eqb_false in E; congruence). rewrite E'. cbn [orb].
    destruct (existsb (str_eqb k) (map fst d)); reflexivity.
Qed.
Lemma mem_str k (l : list str) : existsb (str_eqb k) l = true <-> In k l.
Proof.
  rewrite existsb_exists. split.
  - intros (x & Hx & E). apply str_eqb_spec in E. subst. exact Hx.
  - intros H. exists k. split; [exact H|apply str_eqb_refl].
Qed.
Lemma NoDup_snoc' {A} (l : list A) x : NoDup l -> ~ In x l -> NoDup (l ++ [x]).
Proof.
  induction 1 as [|y l Hy Hl IH]; intros Hx; cbn [app]; [constructor; [intros []|constructor]|].
  constructor; [|apply IH; intros H; apply Hx; right; exact H]. rewrite in_app_iff. intros [H|[->|[]]]; [contradiction|apply Hx; left; reflexivity].
Qed.
Lemma dict_set_nodup d k v : NoDup (map fst d) -> NoDup (map fst (dict_set k v d)).
Proof.
  intros H. rewrite dict_set_keys. destruct (existsb (str_eqb k) (map fst d)) eqn:E; [exact H|]. apply NoDup_snoc'; [exact H|]. intros Hk. apply mem_str in Hk. congruence.
Qed.
Lemma dict_del_keys d k : forall x, In x (map fst (dict_del k d)) -> In x (map fst d).
Proof. induction d as [|[q y] d IH]; cbn [dict_del map fst]; intros x; [tauto|]. destruct (str_eqb q k); [right; assumption|]. cbn [map fst In]. intros [->|H]; [left; reflexivity|right; auto]. Qed.
Lemma dict_del_nodup d k : NoDup (map fst d) -> NoDup (map fst (dict_del k d)).
Proof.
  induction d as [|[q y] d IH]; cbn [dict_del map fst]; intros H; [constructor|]. inversion H as [|? ? H1 H2]; subst. destruct (str_eqb q k); [exact H2|].
  cbn [map fst]. constructor; [|auto]. intros Hq. apply H1. eapply dict_del_keys. exact Hq.
Qed.
Lemma dict_del_get d k k' : NoDup (map fst d) -> dict_get k' (dict_del k d) = if str_eqb k k' then None else dict_get k' d.
Proof.
  induction d as [|[q y] d IH]; cbn [dict_del map fst dict_get]; intros H; [destruct (str_eqb k k'); reflexivity|]. inversion H as [|? ? H1 H2]; subst.
  destruct (str_eqb q k) eqn:E.
  - apply str_eqb_spec in E. subst q. destruct (str_eqb k k') eqn:E2; [|reflexivity]. apply str_eqb_spec in E2. subst k'. apply dict_get_none. exact H1.
  - cbn [dict_get]. rewrite IH by exact H2. destruct (str_eqb q k') eqn:E1; [|reflexivity]. apply str_eqb_spec in E1. subst q.
    destruct (str_eqb k k') eqn:E2; [|reflexivity]. apply str_eqb_spec in E2. apply str_eqb_false in E. congruence.
Qed.
End Dict.

(** * Splitting *)
Lemma rcut_none s : rcut s = None <-> ~ In 46 s.
Proof.
  induction s as [|c s IH]; cbn [rcut In]; [tauto|]. destruct (rcut s) as [[a b]|] eqn:E.
  - split; [discriminate|]. intros H. exfalso. assert (X : Some (a, b) = None) by (apply IH; tauto). discriminate.
  - destruct (c =? 46) eqn:Ec.
    + apply Nat.eqb_eq in Ec. split; [discriminate|tauto].
    + apply Nat.eqb_neq in Ec. split; [|reflexivity]. intros _ [H|H]; [congruence|]. revert H. apply IH. reflexivity.
Qed.
Lemma rcut_some s a b : rcut s = Some (a, b) <-> s = a ++ [46] ++ b /\ ~ In 46 b.
Proof.
  revert a b. induction s as [|c s IH]; intros a b; cbn [rcut].
  - split; [discriminate|]. intros [H _]. destruct a; discriminate.
  - destruct (rcut s) as [[a' b']|] eqn:E.
    + destruct (proj1 (IH a' b') eq_refl) as [-> Hb']. split.
      * intros [= <- <-]. auto.
      * intros [H Hb]. destruct a as [|x a]; cbn [app] in H.
        -- injection H as -> H. exfalso. apply Hb. rewrite <- H. apply in_or_app. right. left. reflexivity.
        -- injection H as -> H. assert (X : Some (a', b') = Some (a, b)) by (apply IH; auto). injection X as -> ->. reflexivity.
    + apply rcut_none in E. destruct (c =? 46) eqn:Ec.
      * apply Nat.eqb_eq in Ec. subst c. split.
        -- intros [= <- <-]. auto.
        -- intros [H Hb]. destruct a as [|x a]; cbn [app] in H; [injection H as ->; reflexivity|]. injection H as _ H. exfalso. apply E. rewrite H. apply in_or_app. right. left. reflexivity.
      * apply Nat.eqb_neq in Ec. split; [discriminate|]. intros [H Hb]. exfalso. destruct a as [|x a]; cbn [app] in H; [congruence|].
        injection H as _ H. apply E. rewrite H. apply in_or_app. right. left. reflexivity.
Qed.
Lemma rsplit2_qualified q m c r : qualified q m c r <-> rsplit2 q = [m; c; r].
Proof.
  unfold qualified, rsplit2. destruct (rcut q) as [[a b]|] eqn:E.
  - apply rcut_some in E as [-> Hb]. destruct (rcut a) as [[x y]|] eqn:E2.
    + apply rcut_some in E2 as [-> Hy]. split.
      * intros (H & Hc & Hr). assert (X : rcut ((x ++ [46] ++ y) ++ [46] ++ b) = Some (m ++ [46] ++ c, r)) by (apply rcut_some; split; [rewrite H, <- !app_assoc; reflexivity|exact Hr]).
        assert (Y : rcut ((x ++ [46] ++ y) ++ [46] ++ b) = Some (x ++ [46] ++ y, b)) by (apply rcut_some; auto). rewrite X in Y. injection Y as Y ->.
        assert (X1 : rcut (m ++ [46] ++ c) = Some (m, c)) by (apply rcut_some; auto). assert (Y1 : rcut (x ++ [46] ++ y) = Some (x, y)) by (apply rcut_some; auto).
        assert (Y' : m ++ [46] ++ c = x ++ [46] ++ y) by exact Y. rewrite Y', Y1 in X1. injection X1 as -> ->. reflexivity.
      * intros [= -> -> ->]. rewrite <- !app_assoc. auto.
    + split; [|discriminate]. intros (H & Hc & Hr). exfalso. assert (X : rcut (a ++ [46] ++ b) = Some (m ++ [46] ++ c, r)) by (apply rcut_some; split; [rewrite H, <- !app_assoc; reflexivity|exact Hr]).
      assert (Y : rcut (a ++ [46] ++ b) = Some (a, b)) by (apply rcut_some; auto). rewrite X in Y. injection Y as Y _. apply rcut_none in E2. apply E2. rewrite <- Y. apply in_or_app. right. left. reflexivity.
  - split; [|discriminate]. intros (-> & _ & _). apply rcut_none in E. exfalso. apply E. apply in_or_app. right. left. reflexivity.
Qed.

(** * Finding a name *)
Section Names.
Variable lower : str -> str.
Variable name : str.

Definition f_exact (x : str * entry) : bool := str_eqb name (e_name (snd x)).
Definition f_alias (x : str * entry) : bool := existsb (str_eqb name) (e_aliases (snd x)).
Definition f_nocase (x : str * entry) : bool :=
  str_eqb (lower name) (lower (e_name (snd x))) || existsb (fun a => str_eqb (lower a) (lower name)) (e_aliases (snd x)).
Definition f_class (x : str * entry) : bool :=
  match nth_error (rsplit2 (fst x)) 1 with Some c => str_eqb (lower name) (lower c) | None => false end.

Lemma qualname_loop_eq reg : Forall (fun x => is_qualified (fst x)) reg -> forall a n c,
  qualname_loop lower name reg a n c =
    match find f_exact reg with
    | Some x => Some (Some (fst x))
    | None => Some (hd_error ((a ++ map fst (filter f_alias reg)) ++ (n ++ map fst (filter f_nocase reg)) ++ (c ++ map fst (filter f_class reg))))
    end.
Proof.
  induction 1 as [|[q e] reg Hq Hreg IH]; intros a n c; cbn [qualname_loop find filter map].
  - rewrite !app_nil_r. reflexivity.
  - unfold f_exact at 1. cbn [snd]. destruct (str_eqb name (e_name e)); [reflexivity|].
    destruct Hq as (m & cl & r & Hq). cbn [fst] in Hq. apply rsplit2_qualified in Hq. rewrite Hq. cbn [nth_error]. rewrite IH.
    destruct (find f_exact reg); [reflexivity|].
    assert (Ea : f_alias (q, e) = existsb (str_eqb name) (e_aliases e)) by reflexivity.
    assert (En : f_nocase (q, e) = str_eqb (lower name) (lower (e_name e)) || existsb (fun a0 => str_eqb (lower a0) (lower name)) (e_aliases e)) by reflexivity.
    assert (Ec : f_class (q, e) = str_eqb (lower name) (lower cl)) by (unfold f_class; cbn [fst]; rewrite Hq; reflexivity).
    rewrite Ea, En, Ec. do 2 f_equal. f_equal; [|f_equal].
    + destruct (existsb (str_eqb name) (e_aliases e)); cbn [map fst]; rewrite <- ?app_assoc; reflexivity.
    + destruct (str_eqb (lower name) (lower (e_name e)) || existsb (fun a0 => str_eqb (lower a0) (lower name)) (e_aliases e)); cbn [map fst]; rewrite <- ?app_assoc; reflexivity.
    + destruct (str_eqb (lower name) (lower cl)); cbn [map fst]; rewrite <- ?app_assoc; reflexivity.
Qed.

Lemma f_exact_ok x : f_exact x = true <-> matches lower name ByName x.
Proof. unfold f_exact, matches. rewrite str_eqb_spec. split; congruence. Qed.
Lemma f_alias_ok x : f_alias x = true <-> matches lower name ByAlias x.
Proof. unfold f_alias, matches. apply mem_str. Qed.
Lemma f_nocase_ok x : f_nocase x = true <-> matches lower name ByCase x.
Proof.
  unfold f_nocase, matches. rewrite orb_true_iff, str_eqb_spec, existsb_exists. split; (intros [H|(a & H1 & H2)]; [left; congruence|right; exists a; split; [exact H1|apply str_eqb_spec; exact H2]]).
Qed.
Lemma f_class_ok x : is_qualified (fst x) -> (f_class x = true <-> matches lower name ByClass x).
Proof.
  intros (m & c & r & Hq). unfold f_class, matches. pose proof (proj1 (rsplit2_qualified _ _ _ _) Hq) as E. rewrite E. cbn [nth_error]. rewrite str_eqb_spec. split.
  - intros H. exists m, c, r. auto.
  - intros (m' & c' & r' & Hq' & H). apply rsplit2_qualified in Hq'. congruence.
Qed.

(** The first item that satisfies a test. *)
Lemma filter_first {A} (f : A -> bool) l : match filter f l with
  | [] => forall x, In x l -> f x = false
  | x :: _ => exists l1 l2, l = l1 ++ x :: l2 /\ f x = true /\ forall y, In y l1 -> f y = false
  end.
Proof.
  induction l as [|a l IH]; cbn [filter]; [intros x []|]. destruct (f a) eqn:E.
  - exists [], l. split; [reflexivity|]. split; [exact E|]. intros y [].
  - destruct (filter f l) as [|x r].
    + intros x [<-|H]; auto.
    + destruct IH as (l1 & l2 & -> & H1 & H2). exists (a :: l1), l2. split; [reflexivity|]. split; [exact H1|]. intros y [<-|H]; auto.
Qed.
Lemma find_first {A} (f : A -> bool) l : find f l = hd_error (filter f l).
Proof. induction l as [|a l IH]; cbn [find filter]; [reflexivity|]. destruct (f a); [reflexivity|exact IH]. Qed.
End Names.

(** * Weights *)
Lemma weight_add_get d n w m : weight_of (weight_add n w d) m = weight_of d m + (if str_eqb n m then w else 0).
Proof.
  unfold weight_of. induction d as [|[q x] d IH]; cbn [weight_add dict_get].
  - destruct (str_eqb n m); lia.
  - destruct (str_eqb q n) eqn:E; cbn [dict_get].
    + apply str_eqb_spec in E. subst q. destruct (str_eqb n m); lia.
    + destruct (str_eqb q m) eqn:E2; [|exact IH]. apply str_eqb_spec in E2. subst q.
      destruct (str_eqb n m) eqn:E3; [|lia]. apply str_eqb_spec in E3. apply str_eqb_false in E. congruence.
Qed.
Lemma weight_add_keys d n w : map fst (weight_add n w d) = if existsb (str_eqb n) (map fst d) then map fst d else map fst d ++ [n].
Proof.
  induction d as [|[q x] d IH]; cbn [weight_add map fst existsb]; [reflexivity|]. destruct (str_eqb q n) eqn:E; cbn [map fst].
  - apply str_eqb_spec in E. subst q. rewrite str_eqb_refl. reflexivity.
  - rewrite IH. assert (E' : str_eqb n q = false) by (apply str_eqb_false; apply str_eqb_false in E; congruence). rewrite E'. cbn [orb].
    destruct (existsb (str_eqb n) (map fst d)); reflexivity.
Qed.
Lemma weights_fold (w : str -> nat) ns : forall d, NoDup ns ->
  let d' := fold_left (fun d n => add_weight d n (w n)) ns d in
  map fst d' = map fst d ++ filter (fun n => (0 <? w n) && negb (existsb (str_eqb n) (map fst d))) ns
  /\ forall m, weight_of d' m = weight_of d m + (if existsb (str_eqb m) ns then w m else 0).
Proof.
  induction ns as [|n ns IH]; intros d Hn; cbn [fold_left filter existsb].
  - split; [rewrite app_nil_r; reflexivity|intros m; lia].
  - inversion Hn as [|? ? H1 H2]; subst. destruct (IH (add_weight d n (w n)) H2) as [K W]. clear IH. cbn zeta. split.
    + rewrite K. unfold add_weight. destruct (w n =? 0) eqn:E.
      * apply Nat.eqb_eq in E. rewrite E. reflexivity.
      * apply Nat.eqb_neq in E. assert (El : (0 <? w n) = true) by (apply Nat.ltb_lt; lia). rewrite El. cbn [andb]. rewrite weight_add_keys.
        destruct (existsb (str_eqb n) (map fst d)) eqn:Em; cbn [negb]; [reflexivity|]. rewrite <- app_assoc. cbn [app]. f_equal. f_equal.
        apply filter_ext_in. intros x Hx. f_equal. f_equal. rewrite existsb_app. cbn [existsb]. rewrite orb_false_r.
        assert (Ex : str_eqb x n = false) by (apply str_eqb_false; intros ->; contradiction). rewrite Ex, orb_false_r. reflexivity.
    + intros m. rewrite W. unfold add_weight. destruct (w n =? 0) eqn:E.
      * apply Nat.eqb_eq in E. destruct (str_eqb m n) eqn:Em; cbn [orb]; [|reflexivity]. apply str_eqb_spec in Em. subst m. rewrite E.
        destruct (existsb (str_eqb n) ns); lia.
      * rewrite weight_add_get. destruct (str_eqb m n) eqn:Em; cbn [orb].
        -- apply str_eqb_spec in Em. subst m. rewrite str_eqb_refl. destruct (existsb (str_eqb n) ns) eqn:Ex; [apply mem_str in Ex; contradiction|lia].
        -- assert (Em' : str_eqb n m = false) by (apply str_eqb_false; apply str_eqb_false in Em; congruence). rewrite Em'. lia.
Qed.

Lemma max_weight_ok f l : heaviest (fun p => f p = true) l (max_weight f l).
Proof.
  unfold heaviest, max_weight. induction l as [|[p w] l [IH1 IH2]]; cbn [filter fst].
  - split; [left; reflexivity|intros p x []].
  - destruct (f p) eqn:E; cbn [map snd list_max fold_right].
    + fold (list_max (map snd (filter (fun x => f (fst x)) l))). split.
      * destruct (Nat.max_spec w (list_max (map snd (filter (fun x => f (fst x)) l)))) as [[_ ->]|[_ ->]].
        -- destruct IH1 as [H|(q & H1 & H2)]; [left; exact H|right; exists q; split; [right; exact H1|exact H2]].
        -- right. exists p. split; [left; reflexivity|exact E].
      * intros q x [[= -> ->]|H] Hq; [apply Nat.le_max_l|]. specialize (IH2 q x H Hq). lia.
    + split.
      * destruct IH1 as [H|(q & H1 & H2)]; [left; exact H|right; exists q; split; [right; exact H1|exact H2]].
      * intros q x [[= -> ->]|H] Hq; [congruence|]. eapply IH2; eassumption.
Qed.
Lemma heaviest_unique f l a b : heaviest f l a -> heaviest f l b -> a = b.
Proof.
  intros [A1 A2] [B1 B2]. assert (a <= b) by (destruct A1 as [->|(p & H1 & H2)]; [lia|eapply B2; eassumption]).
  assert (b <= a) by (destruct B1 as [->|(p & H1 & H2)]; [lia|eapply A2; eassumption]). lia.
Qed.
Lemma sum_weight_unique f l n : adds_up (fun p => f p = true) l n -> n = sum_weight f l.
Proof.
  unfold sum_weight. induction 1 as [|p w l n Hf H IH|p w l n Hf H IH]; cbn [filter fst].
  - reflexivity.
  - rewrite Hf. cbn [map snd list_sum fold_right]. fold (list_sum (map snd (filter (fun x => f (fst x)) l))). lia.
  - destruct (f p); [contradiction|]. exact IH.
Qed.
Lemma heaviest_ext (f g : str -> Prop) l w : (forall p, f p <-> g p) -> heaviest f l w -> heaviest g l w.
Proof.
  intros E [H1 H2]. split.
  - destruct H1 as [H|(p & A & B)]; [left; exact H|right; exists p; split; [exact A|apply E; exact B]].
  - intros p x A B. eapply H2; [exact A|apply E; exact B].
Qed.
Lemma adds_up_ext (f g : str -> Prop) l n : (forall p, f p <-> g p) -> adds_up f l n -> adds_up g l n.
Proof. intros E. induction 1; constructor; try (rewrite <- E); assumption. Qed.
Lemma adds_up_none (f : str -> Prop) l n : (forall p, ~ f p) -> adds_up f l n -> n = 0.
Proof. intros E. induction 1 as [|p w l n Hf H IH|p w l n Hf H IH]; [reflexivity|destruct (E p Hf)|exact IH]. Qed.
Lemma heaviest_none (f : str -> Prop) l w : (forall p, ~ f p) -> heaviest f l w -> w = 0.
Proof. intros E [[->|(p & _ & H)] _]; [reflexivity|destruct (E p H)]. Qed.

Lemma filter_false {A} (l : list A) : filter (fun _ => false) l = [].
Proof. induction l as [|x l IH]; [reflexivity|exact IH]. Qed.

(** * Sorting *)
Section Sorting.
Variable w : str -> nat.
Lemma insert_desc_perm x l : Permutation (x :: l) (insert_desc w x l).
Proof.
  induction l as [|y l IH]; cbn [insert_desc]; [apply Permutation_refl|]. destruct (w y <=? w x); [apply Permutation_refl|].
  eapply Permutation_trans; [apply perm_swap|]. constructor. exact IH.
Qed.
Lemma insert_desc_sorted x l : StronglySorted (fun a b => w b <= w a) l -> StronglySorted (fun a b => w b <= w a) (insert_desc w x l).
Proof.
  induction l as [|y l IH]; cbn [insert_desc]; intros H; [repeat constructor|]. inversion H as [|? ? H1 H2]; subst. destruct (w y <=? w x) eqn:E.
  - apply Nat.leb_le in E. constructor; [exact H|]. constructor; [exact E|]. eapply Forall_impl; [|exact H2]. cbn beta. intros a Ha. lia.
  - apply Nat.leb_gt in E. constructor; [apply IH; exact H1|]. apply (Permutation_Forall (insert_desc_perm x l)). constructor; [lia|exact H2].
Qed.
Lemma insert_desc_filter x l n : StronglySorted (fun a b => w b <= w a) l ->
  filter (fun a => w a =? n) (insert_desc w x l) = filter (fun a => w a =? n) (x :: l).
Proof.
  induction l as [|y l IH]; cbn [insert_desc]; intros H; [reflexivity|]. inversion H as [|? ? H1 H2]; subst. destruct (w y <=? w x) eqn:E; [reflexivity|].
  apply Nat.leb_gt in E. specialize (IH H1). cbn [filter] in IH |- *. rewrite IH. destruct (w y =? n) eqn:Ey; [|reflexivity].
  apply Nat.eqb_eq in Ey. destruct (w x =? n) eqn:Ex; [|reflexivity]. apply Nat.eqb_eq in Ex. lia.
Qed.
Lemma sort_desc_ok l : sorted_on w l (sort_desc w l).
Proof.
  unfold sorted_on, sort_desc. induction l as [|x l (P & S & F)]; cbn [fold_right].
  - split; [constructor|]. split; [constructor|reflexivity].
  - split; [|split].
    + eapply Permutation_trans; [|apply insert_desc_perm]. constructor. exact P.
    + apply insert_desc_sorted. exact S.
    + intros n. rewrite insert_desc_filter by exact S. cbn [filter]. rewrite F. reflexivity.
Qed.
End Sorting.
Lemma sorted_on_ext {A} (w v : A -> nat) g r : (forall x, In x g -> w x = v x) -> sorted_on w g r -> sorted_on v g r.
Proof.
  intros E (P & S & F). assert (E' : forall x, In x r -> w x = v x) by (intros x Hx; apply E; eapply Permutation_in; [apply Permutation_sym; exact P|exact Hx]).
  split; [exact P|]. split.
  - clear P F. induction S as [|a r S IH H]; constructor.
    + apply IH. intros x Hx. apply E'. right. exact Hx.
    + rewrite Forall_forall in H |- *. intros x Hx. rewrite <- (E' x), <- (E' a) by (cbn [In]; auto). auto.
  - intros n. rewrite (filter_ext_in _ (fun a => w a =? n) r) by (intros x Hx; rewrite E' by exact Hx; reflexivity).
    rewrite (filter_ext_in _ (fun a => w a =? n) g) by (intros x Hx; rewrite E by exact Hx; reflexivity). apply F.
Qed.

(** * Suggested names are registered *)
Lemma add_weight_keys_in d n w x : In x (map fst (add_weight d n w)) -> In x (map fst d) \/ x = n.
Proof.
  unfold add_weight. destruct (w =? 0); [auto|]. rewrite weight_add_keys. destruct (existsb (str_eqb n) (map fst d)); [auto|].
  rewrite in_app_iff. intros [H|[H|[]]]; auto.
Qed.
Lemma fold_weight_keys (w : str -> nat) ns : forall d x, In x (map fst (fold_left (fun d n => add_weight d n (w n)) ns d)) -> In x (map fst d) \/ In x ns.
Proof.
  induction ns as [|n ns IH]; intros d x; cbn [fold_left]; [auto|]. intros H. apply IH in H as [H|H]; [|right; right; exact H].
  apply add_weight_keys_in in H as [H|H]; [left; exact H|right; left; congruence].
Qed.
Lemma suggest_in fnmatch search reg f m c x : In x (suggest fnmatch search reg f m c) -> In x (map fst reg).
Proof.
  unfold suggest. cbv zeta.
  set (d1 := if filled f then _ else []). assert (D1 : forall x, In x (map fst d1) -> In x (map fst reg)).
  { intros y. unfold d1. destruct (filled f); [|intros []]. intros H. apply (fold_weight_keys (fun name => max_weight (fnmatch f) (e_filenames (entry_of reg name)))) in H as [[]|H]; exact H. }
  set (d2 := if filled m then _ else d1). assert (D2 : forall x, In x (map fst d2) -> In x (map fst reg)).
  { intros y. unfold d2. destruct (filled m); [|auto]. intros H. apply (fold_weight_keys (fun name => max_weight (fun m0 => str_eqb m0 m) (e_mimetypes (entry_of reg name)))) in H as [H|H]; auto. }
  clearbody d1 d2.
  assert (D3 : forall ns, (forall x, In x ns -> In x (map fst reg)) -> forall x,
     In x (let d3 := if filled c then fold_left (fun d name => add_weight d name (sum_weight (fun r => search r (firstn 5000 c)) (e_guesses (entry_of reg name)))) ns d2 else d2 in
           sort_desc (weight_of d3) (map fst d3)) -> In x (map fst reg)).
  { intros ns Hns y. cbv zeta. intros H. apply (Permutation_in _ (Permutation_sym (proj1 (sort_desc_ok _ _)))) in H. destruct (filled c); [|auto].
    apply (fold_weight_keys (fun name => sum_weight (fun r => search r (firstn 5000 c)) (e_guesses (entry_of reg name)))) in H as [H|H]; auto. }
  assert (D4 : forall x, In x (sort_desc (weight_of d2) (map fst d2)) -> In x (map fst reg)).
  { intros y H. apply (Permutation_in _ (Permutation_sym (proj1 (sort_desc_ok _ _)))) in H. auto. }
  destruct (sort_desc (weight_of d2) (map fst d2)) as [|n [|k r]].
  - apply D3. auto.
  - apply D4.
  - destruct (weight_of d2 k <? weight_of d2 n); [apply D4|]. apply D3. exact D4.
Qed.

(** * Sections *)
Lemma section_add_keys q e d : map fst (section_add q e d) = if existsb (str_eqb (e_section e)) (map fst d) then map fst d else map fst d ++ [e_section e].
Proof.
  induction d as [|[s r] d IH]; cbn [section_add map fst existsb]; [reflexivity|]. destruct (str_eqb s (e_section e)) eqn:E; cbn [map fst].
  - apply str_eqb_spec in E. subst s. rewrite str_eqb_refl. reflexivity.
  - rewrite IH. assert (E' : str_eqb (e_section e) s = false) by (apply str_eqb_false; apply str_eqb_false in E; congruence). rewrite E'. cbn [orb].
    destruct (existsb (str_eqb (e_section e)) (map fst d)); reflexivity.
Qed.
Lemma section_add_get q e d s : dict_get s (section_add q e d) =
  if str_eqb (e_section e) s then Some (dict_set q e (match dict_get s d with Some r => r | None => [] end)) else dict_get s d.
Proof.
  induction d as [|[t r] d IH]; cbn [section_add dict_get].
  - reflexivity.
  - destruct (str_eqb t (e_section e)) eqn:E; cbn [dict_get].
    + apply str_eqb_spec in E. subst t. destruct (str_eqb (e_section e) s); reflexivity.
    + rewrite IH. destruct (str_eqb t s) eqn:E1; [|reflexivity]. apply str_eqb_spec in E1. subst t. apply str_eqb_false in E.
      destruct (str_eqb (e_section e) s) eqn:E2; [apply str_eqb_spec in E2; congruence|reflexivity].
Qed.
Lemma dict_set_new {V} q (e : V) d : ~ In q (map fst d) -> dict_set q e d = d ++ [(q, e)].
Proof.
  induction d as [|[k x] d IH]; cbn [dict_set map fst In app]; intros H; [reflexivity|]. destruct (str_eqb k q) eqn:E; [apply str_eqb_spec in E; tauto|].
  rewrite IH by tauto. reflexivity.
Qed.
Lemma by_section_snoc reg x : by_section (reg ++ [x]) = section_add (fst x) (snd x) (by_section reg).
Proof. unfold by_section. rewrite fold_left_app. reflexivity. Qed.
Lemma by_section_nodup reg : NoDup (map fst (by_section reg)).
Proof.
  induction reg as [|x reg IH] using rev_ind; [constructor|]. rewrite by_section_snoc, section_add_keys.
  destruct (existsb (str_eqb (e_section (snd x))) (map fst (by_section reg))) eqn:E; [exact IH|]. apply NoDup_snoc'; [exact IH|]. intros H. apply mem_str in H. congruence.
Qed.
Lemma by_section_ok reg s : NoDup (map fst reg) -> match dict_get s (by_section reg) with
  | Some d => d <> [] /\ d = filter (fun x => str_eqb (e_section (snd x)) s) reg
  | None => forall x, In x reg -> e_section (snd x) <> s
  end.
Proof.
  induction reg as [|[q e] reg IH] using rev_ind; intros Hn; [intros x []|]. rewrite by_section_snoc, section_add_get. cbn [fst snd].
  rewrite map_app in Hn. cbn [map fst] in Hn. assert (Hn1 : NoDup (map fst reg) /\ ~ In q (map fst reg)).
  { apply NoDup_remove in Hn. rewrite app_nil_r in Hn. exact Hn. }
  destruct Hn1 as [Hn1 Hq]. specialize (IH Hn1). rewrite filter_app. cbn [filter snd]. destruct (str_eqb (e_section e) s) eqn:E.
  - destruct (dict_get s (by_section reg)) as [d|].
    + destruct IH as [_ ->]. rewrite dict_set_new; [split; [|reflexivity]|].
      * intros H. apply app_eq_nil in H as [_ H]. discriminate.
      * intros H. apply Hq. apply in_map_iff in H as (y & <- & Hy). apply filter_In in Hy as [Hy _]. apply in_map. exact Hy.
    + assert (X : filter (fun x => str_eqb (e_section (snd x)) s) reg = []).
      { clear -IH. induction reg as [|y l IHl]; [reflexivity|]. cbn [filter]. destruct (str_eqb (e_section (snd y)) s) eqn:Ey.
        - apply str_eqb_spec in Ey. exfalso. apply (IH y); [left; reflexivity|exact Ey].
        - apply IHl. intros z Hz. apply IH. right. exact Hz. }
      rewrite X. split; [discriminate|reflexivity].
  - destruct (dict_get s (by_section reg)) as [d|].
    + rewrite app_nil_r. exact IH.
    + intros x Hx. apply in_app_iff in Hx as [Hx|[<-|[]]]; [apply IH, Hx|]. cbn [snd]. apply str_eqb_false. exact E.
Qed.

Lemma or_own x y : own_or x y (or_ x y).
Proof. unfold own_or, or_. destruct x; cbn [filled]; split; congruence. Qed.
Lemma merge_inherits t e : inherits t e (merge t e).
Proof.
  unfold inherits, merge. cbn [e_name e_desc e_section e_author e_aliases e_filenames e_mimetypes e_guesses].
  split; [apply or_own|]. split; [apply or_own|]. split; [apply or_own|]. split; [intros ->; reflexivity|]. split; [|split; [|repeat split; reflexivity]].
  - intros He Ht. destruct (e_author e) as [|c a]; [contradiction|]. cbn [filled]. destruct Ht as [->|Ht]; [reflexivity|]. rewrite Ht, str_eqb_refl, andb_false_r. reflexivity.
  - intros He Ht Hne. destruct (e_author e) as [|c a]; [contradiction|]. destruct (e_author t) as [|c' a']; [contradiction|]. cbn [filled andb].
    assert (E : str_eqb (c' :: a') (c :: a) = false) by (apply str_eqb_false; exact Hne). rewrite E. reflexivity.
Qed.
