(** C55, C77: the hierarchy of standard actions. *)
From Verif Require Import Base BaseFacts StandardActionModel StandardActionSpec StandardActionProofs.

(** C77. Whatever was made before: every action has one path of names, and no other action has that path. Making an action
    with a name and a parent gives the one whose path is that of the parent with the name added; actions made earlier stay
    what they are. *)
Theorem C77_actions_are_unique : forall st, reach st ->
  (forall i, i < length (heap st) -> exists p, is_path (heap st) i p /\ forall q, is_path (heap st) i q -> q = p)
  /\ (forall i j p, is_path (heap st) i p -> is_path (heap st) j p -> i = j)
  /\ (forall name parent pp,
        match parent with None => pp = [] | Some j => is_path (heap st) j pp end -> usable parent name ->
        exists i, snd (new st name parent) = Some i
          /\ is_path (heap (fst (new st name parent))) i (pp ++ [name])
          /\ (forall k p, is_path (heap st) k p -> is_path (heap (fst (new st name parent))) k p)
          /\ (forall k, is_path (heap st) k (pp ++ [name]) -> i = k /\ fst (new st name parent) = st)
          /\ (forall k, k < length (heap (fst (new st name parent))) -> k < length (heap st) \/ k = i))
  (* attribute access gives the same, if the name does not start with an underscore *)
  /\ (forall j c name, getattr st j (c :: name) = if c =? 95 then (st, None) else new st (c :: name) (Some j)).
Proof.
  intros st Hr. pose proof (reach_good st Hr) as G. split; [|split; [|split]].
  - intros i Hi. destruct (path_exists st G (S i) i) as (p & Hp); [lia|exact Hi|]. exists p. split; [exact Hp|]. intros q Hq. apply (path_fun _ _ _ Hq). exact Hp.
  - intros i j p Hi Hj. eapply path_inj; eassumption.
  - intros name parent pp Hpp Hu. rewrite new_cases by exact Hu. destruct (lookup parent name (interned st)) as [i|] eqn:E; cbn [fst snd heap].
    + exists i. assert (Hi : is_path (heap st) i (pp ++ [name])).
      { apply (proj1 G) in E. destruct parent as [j|]; [econstructor; eassumption|subst pp; constructor; exact E]. }
      split; [reflexivity|]. split; [exact Hi|]. split; [auto|]. split; [intros k Hk; split; [eapply path_inj; eassumption|reflexivity]|]. auto.
    + assert (E' : nth_error (heap st ++ [Action name parent]) (length (heap st)) = Some (Action name parent)) by (rewrite nth_error_snoc, Nat.eqb_refl; reflexivity).
      exists (length (heap st)). split; [reflexivity|]. split; [|split; [|split]].
      * destruct parent as [j|]; [econstructor; [exact E'|apply path_grow; exact Hpp]|subst pp; constructor; exact E'].
      * intros k p Hk. apply path_grow. exact Hk.
      * intros k Hk. exfalso. inversion Hk as [k' n' Ek Hx Hq|k' n' j' p' Ek Hp' Hx Hq]; subst.
        -- destruct pp as [|x pp]; [|injection Hq as _ Hq; symmetry in Hq; apply app_eq_nil in Hq as [_ Hq]; discriminate].
           injection Hq as ->. destruct parent as [j|]; [apply (path_nonempty _ _ _ Hpp); reflexivity|]. apply (proj1 G) in Ek. congruence.
        -- apply app_inj_tail in Hq as [-> ->]. destruct parent as [j|]; [|subst pp; apply (path_nonempty _ _ _ Hp'); reflexivity].
           rewrite (path_inj st G _ _ Hp' _ Hpp) in Ek. apply (proj1 G) in Ek. congruence.
      * intros k Hk. rewrite app_length in Hk. cbn [length] in Hk. lia.
  - intros j c name. unfold getattr. do 95 (destruct c as [|c]; [reflexivity|]). destruct c as [|c]; reflexivity.
Qed.
Print Assumptions C77_actions_are_unique.

(** The names [_name] and [_parent] do not give an action. *)
Theorem C77_reserved_names_refuted : exists st parent name, reach st /\ parent < length (heap st) /\ snd (new st name (Some parent)) = None.
Proof.
  exists (fst (new start [65] None)), 0, s_name. split; [apply reach_new; [constructor|discriminate]|]. split; [cbn; lia|reflexivity].
Qed.
Print Assumptions C77_reserved_names_refuted.

(** C55. [x in y] holds exactly if the path of [x] starts with that of [y]; a string is in [x] exactly if it is one of the
    names of its path; [repr] shows the path; and [x & y] is the action with the longest common start of both paths, None if
    they have no common start. *)
Theorem C55_hierarchy : forall st, reach st -> forall x px y py, is_path (heap st) x px -> is_path (heap st) y py ->
  (contains (heap st) y x = true <-> prefix py px)
  /\ (forall s, contains_str (heap st) x s = true <-> In s px)
  /\ repr (heap st) x = py_join [46] px
  /\ match and_ (heap st) x y with
     | Some z => exists pz, is_path (heap st) z pz /\ prefix pz px /\ prefix pz py /\ forall r, prefix r px -> prefix r py -> prefix r pz
     | None => forall r, prefix r px -> prefix r py -> r = []
     end.
Proof.
  intros st Hr x px y py Hx Hy. pose proof (reach_good st Hr) as G. destruct (iter_path st x px G Hx) as [Nx Ix]. destruct (iter_path st y py G Hy) as [Ny Iy].
  assert (Hmem : forall t q l, is_path (heap st) t q -> prefix q l -> l = px \/ l = py -> existsb (Nat.eqb t) (iter (heap st) x) = true \/ existsb (Nat.eqb t) (iter (heap st) y) = true).
  { intros t q l Ht Hq [->| ->]; [left; apply mem_iff, (Ix _ _ Ht), Hq|right; apply mem_iff, (Iy _ _ Ht), Hq]. }
  split; [|split; [|split]].
  - rewrite <- (Ix _ _ Hy), <- mem_iff. unfold contains.
    assert (E : forall l, existsb (fun t => t =? y) l = existsb (Nat.eqb y) l) by (induction l as [|a l IH]; [reflexivity|cbn [existsb]; rewrite IH, Nat.eqb_sym; reflexivity]).
    rewrite E. reflexivity.
  - intros s. unfold contains_str. rewrite existsb_exists. rewrite (in_rev px), <- Nx, in_map_iff. split.
    + intros (t & Ht & E). exists t. split; [apply str_eqb_spec; exact E|exact Ht].
    + intros (t & E & Ht). exists t. split; [exact Ht|apply str_eqb_spec; exact E].
  - unfold repr. rewrite Nx, rev_involutive. reflexivity.
  - (* a common start is the path of an action *)
    assert (Hstart : forall i p, is_path (heap st) i p -> forall r, r <> [] -> prefix r p -> exists u, is_path (heap st) u r).
    { induction 1 as [i n E|i n j p E Hp IH]; intros r Hn [s Hs].
      - exists i. destruct r as [|c r]; [contradiction|]. injection Hs as <- Hs. symmetry in Hs. apply app_eq_nil in Hs as [-> _]. constructor. exact E.
      - destruct s as [|c s] using rev_ind.
        + rewrite app_nil_r in Hs. subst r. exists i. econstructor; eassumption.
        + rewrite app_assoc in Hs. apply app_inj_tail in Hs as [-> _]. apply IH; [exact Hn|]. exists s. reflexivity. }
    unfold and_. destruct (find (fun t => existsb (Nat.eqb t) (iter (heap st) y)) (iter (heap st) x)) as [z|] eqn:E.
    + pose proof E as E0. apply find_some in E as [Hz1 Hz2]. apply mem_iff in Hz2. destruct (path_exists st G (S z) z) as (pz & Hpz); [lia|apply (chain_ids st G _ _ _ Hz1)|].
      exists pz. split; [exact Hpz|]. split; [apply (Ix _ _ Hpz), Hz1|]. split; [apply (Iy _ _ Hpz), Hz2|].
      intros r H1 H2. destruct r as [|c r]; [exists pz; reflexivity|]. destruct (Hstart _ _ Hx (c :: r)) as (u & Hu); [discriminate|exact H1|].
      refine (chain_first st G x px Hx _ _ _ z pz E0 Hpz u (c :: r) Hu H1 _); [pose proof (path_valid _ _ _ Hx); lia|].
      apply mem_iff, (Iy _ _ Hu), H2.
    + intros r H1 H2. destruct r as [|c r]; [reflexivity|]. exfalso. destruct (Hstart _ _ Hx (c :: r)) as (u & Hu); [discriminate|exact H1|].
      pose proof (find_none _ _ E u (proj2 (Ix _ _ Hu) H1)) as Hn. cbn beta in Hn. assert (existsb (Nat.eqb u) (iter (heap st) y) = true) by (apply mem_iff, (Iy _ _ Hu), H2). congruence.
Qed.
Print Assumptions C55_hierarchy.

(** [in] is a partial order, and the repr identifies an action if names have no dot. *)
Theorem C55_partial_order : forall st, reach st -> forall x y z, x < length (heap st) -> y < length (heap st) -> z < length (heap st) ->
  contains (heap st) x x = true
  /\ (contains (heap st) y x = true -> contains (heap st) x y = true -> x = y)
  /\ (contains (heap st) y x = true -> contains (heap st) z y = true -> contains (heap st) z x = true)
  /\ (Forall (fun a => ~ In 46 (a_name a)) (heap st) -> repr (heap st) x = repr (heap st) y -> x = y).
Proof.
  intros st Hr x y z Hx Hy Hz. destruct (C77_actions_are_unique st Hr) as (Hex & Hinj & _).
  destruct (Hex x Hx) as (px & Px & _). destruct (Hex y Hy) as (py & Py & _). destruct (Hex z Hz) as (pz & Pz & _).
  destruct (C55_hierarchy st Hr x px x px Px Px) as (Cxx & _). destruct (C55_hierarchy st Hr x px y py Px Py) as (Cyx & _ & Rx & _).
  destruct (C55_hierarchy st Hr y py x px Py Px) as (Cxy & _ & Ry & _). destruct (C55_hierarchy st Hr y py z pz Py Pz) as (Czy & _).
  destruct (C55_hierarchy st Hr x px z pz Px Pz) as (Czx & _). split; [|split; [|split]].
  - apply Cxx. exists []. rewrite app_nil_r. reflexivity.
  - rewrite Cyx, Cxy. intros [r ->] [s Hs]. apply (Hinj _ _ py); [|exact Py].
    assert (r = []); [|subst r; rewrite app_nil_r in Px; exact Px]. rewrite <- app_assoc in Hs.
    assert (length (py ++ r ++ s) = length py) by congruence. rewrite !app_length in H. destruct r; [reflexivity|cbn [length] in H; lia].
  - rewrite Cyx, Czy, Czx. intros [r ->] [s ->]. exists (s ++ r). rewrite app_assoc. reflexivity.
  - intros Hd. rewrite Rx, Ry. intros E. assert (Hnames : forall i p, is_path (heap st) i p -> Forall (fun s => ~ In 46 s) p).
    { induction 1 as [i n En|i n j p En Hp IH]; [|apply Forall_app; split; [exact IH|]]; (constructor; [|constructor]); rewrite Forall_forall in Hd; apply nth_error_In in En; exact (Hd _ En). }
    apply (Hinj _ _ px Px). rewrite (py_join_inj 46 px py); [exact Py|eapply Hnames; exact Px|eapply Hnames; exact Py|eapply path_nonempty; exact Px|eapply path_nonempty; exact Py|exact E].
Qed.
Print Assumptions C55_partial_order.

(** Literal, Literal.String (twice), Literal.String.Double, Literal.Number, Text (written L, S, D, N, T). *)
Definition sample : state :=
  let st := fst (new start [76] None) in
  let st := fst (getattr st 0 [83]) in let st := fst (getattr st 0 [83]) in
  let st := fst (getattr st 1 [68]) in let st := fst (getattr st 0 [78]) in
  fst (new st [84] None).
Example C55_sample : reach sample /\ length (heap sample) = 5
  /\ is_path (heap sample) 2 [[76]; [83]; [68]] /\ is_path (heap sample) 3 [[76]; [78]]
  /\ contains (heap sample) 0 2 = true /\ contains (heap sample) 2 0 = false
  /\ and_ (heap sample) 2 3 = Some 0 /\ and_ (heap sample) 2 4 = None
  /\ contains_str (heap sample) 2 [83] = true /\ repr (heap sample) 2 = [76; 46; 83; 46; 68].
Proof.
  split.
  { unfold sample. cbv zeta. apply reach_new; [|discriminate].
    do 4 (apply reach_attr; [|vm_compute; lia]). apply reach_new; [apply reach_start|discriminate]. }
  split; [reflexivity|]. split.
  { apply (path_child _ 2 [68] 1 [[76]; [83]]); [reflexivity|]. apply (path_child _ 1 [83] 0 [[76]]); [reflexivity|]. apply path_top. reflexivity. }
  split; [|repeat split; reflexivity].
  apply (path_child _ 3 [78] 0 [[76]]); [reflexivity|]. apply path_top. reflexivity.
Qed.
