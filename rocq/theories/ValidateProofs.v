(** The check of default targets ends, and what its verdict says about the chain of default targets. *)
From Verif Require Import Base BaseFacts TargetModel TargetSpec ValidateModel ValidateSpec.
From Coq Require Import ZArith ZifyBool.

Section Proofs.
Variable L : Type.
Variable default_of : L -> option (list (titem L)).
Notation ctx := (nat * L)%type.
Notation chain := (chain default_of).

(** ** Chains *)
Lemma chain_det start n a b : chain start n a -> chain start n b -> a = b.
Proof.
  intros H. revert b. induction H as [|n s l items s' H IH El Ed Ew]; intros b Hb; inversion Hb as [|n0 s0 l0 items0 s0' H0 El0 Ed0 Ew0]; subst; [reflexivity|].
  apply IH in H0. subst s0. congruence.
Qed.
Lemma chain_pred start n s : chain start (S n) s -> exists s0, chain start n s0.
Proof. intros H. inversion H; subst; eauto. Qed.
Lemma chain_below start n s m : chain start n s -> m <= n -> exists s', chain start m s'.
Proof.
  intros H Hm. remember (n - m) as d. revert n s H Hm Heqd. induction d as [|d IH]; intros n s H Hm E.
  - replace m with n by lia. eauto.
  - destruct n as [|n]; [lia|]. destruct (chain_pred _ _ _ H) as [s0 H0]. apply (IH n s0 H0); lia.
Qed.
Lemma chain_shift start n m s d t : chain start n s -> chain start m s -> chain start (n + d) t -> chain start (m + d) t.
Proof.
  intros H1 H2. revert t. induction d as [|d IH]; intros t Ht.
  - rewrite Nat.add_0_r in Ht |- *. rewrite (chain_det _ _ _ _ Ht H1). exact H2.
  - rewrite Nat.add_succ_r in Ht |- *. inversion Ht as [|n0 s0 l0 items0 s0' H0 El0 Ed0 Ew0]; subst. eapply chain_next; eauto.
Qed.
Lemma repeats start n m s : n < m -> chain start n s -> chain start m s -> endless default_of start.
Proof.
  intros Hnm H1 H2 k. induction k as [k IH] using lt_wf_ind.
  destruct (Nat.le_gt_cases k m) as [Hk|Hk]; [exact (chain_below _ _ _ _ H2 Hk)|].
  destruct (IH (k - (m - n)) ltac:(lia)) as [t Ht]. exists t.
  replace (k - (m - n)) with (n + (k - m)) in Ht by lia. replace k with (m + (k - m)) by lia. exact (chain_shift _ _ _ _ _ _ H1 H2 Ht).
Qed.

(** ** The items of a target *)
Definition derived (st : list ctx) (n : nat) (st' : list ctx) (n' : nat) : Prop :=
  n <= n' /\ exists k fr, st' = firstn k st ++ fr /\ k <= length st /\ Forall (fun c => n <= fst c < n') fr /\ NoDup (map fst fr).
Lemma Forall_firstn_ {A} (P : A -> Prop) k l : Forall P l -> Forall P (firstn k l).
Proof. intros H. revert k. induction H; intros [|k]; cbn; constructor; auto. Qed.
Lemma NoDup_firstn_ {A} k (l : list A) : NoDup l -> NoDup (firstn k l).
Proof. intros H. rewrite <- (firstn_skipn k l) in H. revert H. generalize (firstn k l) as a, (skipn k l) as b. induction a as [|x a IH]; intros b H; [constructor|]. cbn in H. inversion H; subst. constructor; [rewrite in_app_iff in *; tauto|eauto]. Qed.
Lemma NoDup_app_ {A} (a b : list A) : NoDup a -> NoDup b -> (forall x, In x a -> ~ In x b) -> NoDup (a ++ b).
Proof. intros Ha Hb H. induction Ha as [|x a Hx Ha IH]; [exact Hb|]. cbn. constructor; [rewrite in_app_iff; intros [?|?]; [auto|apply (H x); [left; reflexivity|assumption]]|]. apply IH. intros y Hy. apply H. right. exact Hy. Qed.
Lemma derived_trans a n b m c k : derived a n b m -> derived b m c k -> derived a n c k.
Proof.
  intros (H1 & k1 & f1 & -> & K1 & F1 & N1) (H2 & k2 & f2 & -> & K2 & F2 & N2). split; [lia|]. rewrite app_length, firstn_length, Nat.min_l in K2 by exact K1.
  destruct (Nat.le_gt_cases k2 k1) as [Hk|Hk].
  - exists k2, f2. split; [|split; [lia|split; [|exact N2]]].
    + rewrite firstn_app, firstn_firstn, firstn_length, Nat.min_l, (Nat.min_l k1) by lia. replace (k2 - k1) with 0 by lia. cbn. rewrite app_nil_r. reflexivity.
    + eapply Forall_impl; [|exact F2]. cbn. lia.
  - exists k1, (firstn (k2 - k1) f1 ++ f2). split; [|split; [exact K1|split]].
    + rewrite firstn_app, firstn_firstn, firstn_length, Nat.min_r, (Nat.min_l k1) by lia. rewrite <- app_assoc. reflexivity.
    + apply Forall_app. split; [eapply Forall_impl; [|apply Forall_firstn_; exact F1]; cbn; lia|eapply Forall_impl; [|exact F2]; cbn; lia].
    + rewrite map_app. apply NoDup_app_; [rewrite <- firstn_map; apply NoDup_firstn_; exact N1|exact N2|]. intros x Hx Hy.
      rewrite <- firstn_map in Hx. assert (In x (map fst f1)) as Hx' by (rewrite <- (firstn_skipn (k2 - k1) (map fst f1)), in_app_iff; auto).
      apply in_map_iff in Hx' as (c1 & <- & I1). apply in_map_iff in Hy as (c2 & E2 & I2).
      rewrite Forall_forall in F1, F2. specialize (F1 _ I1). specialize (F2 _ I2). cbn in *. lia.
Qed.
Lemma derived_refl a n : derived a n a n.
Proof. split; [lia|]. exists (length a), []. rewrite firstn_all, app_nil_r. repeat split; auto; constructor. Qed.
Lemma derived_pop a n z : derived a n (drop_last z a) n.
Proof. split; [lia|]. exists (length a - z), []. rewrite app_nil_r. repeat split; [lia|constructor|constructor]. Qed.
Lemma new_ids n (l : L) z : map fst (new_ctxs n l z) = seq n z.
Proof. revert n. induction z as [|z IH]; intros n; cbn; [reflexivity|]. rewrite IH. reflexivity. Qed.
Lemma new_lexs n (l : L) z : map snd (new_ctxs n l z) = repeat l z.
Proof. revert n. induction z as [|z IH]; intros n; cbn; [reflexivity|]. rewrite IH. reflexivity. Qed.
Lemma derived_push a n fr z : map fst fr = seq n z -> derived a n (a ++ fr) (n + z).
Proof.
  intros E. split; [lia|]. exists (length a), fr. rewrite firstn_all. split; [reflexivity|]. split; [lia|]. rewrite E. split; [|apply seq_NoDup].
  rewrite Forall_forall. intros c Hc. apply (in_map fst) in Hc. rewrite E, in_seq in Hc. exact Hc.
Qed.

Lemma walk_cons (l : L) r items s s1 : follow_item l s r = s1 -> s1 <> [] -> walk l (TItem r :: items) s = walk l items s1.
Proof. intros <- H. cbn [walk]. destruct (follow_item l s r); [contradiction|reflexivity]. Qed.
Lemma map_nonnil {A B} (f : A -> B) l : l <> [] -> map f l <> [].
Proof. destruct l; [contradiction|discriminate]. Qed.
(** One item: stop, or go on with a derived stack. *)
Lemma item_step (l : L) r items st n : st <> [] ->
  (chk_items l (TItem r :: items) st n = inl VLeft /\ exists z, r = RInt z /\ follow_item l (map snd st) (RInt z) = [])
  \/ exists st1 n1, chk_items l (TItem r :: items) st n = chk_items l items st1 n1 /\ st1 <> [] /\ derived st n st1 n1
       /\ follow_item l (map snd st) r = map snd st1.
Proof.
  intros Hst. destruct r as [z|l']; cbn [chk_items follow_item].
  - destruct (z <? 0)%Z eqn:Ez.
    + destruct (Z.of_nat (length st) + z <? 1)%Z eqn:El.
      * left. split; [reflexivity|]. exists z. split; [reflexivity|]. rewrite Ez. apply drop_last_all. rewrite map_length. lia.
      * right. do 2 eexists. split; [reflexivity|]. split; [|split; [apply derived_pop|]].
        -- intros H. apply (f_equal (@length ctx)) in H. rewrite drop_last_length in H. cbn [length] in H. lia.
        -- unfold drop_last. rewrite firstn_map, map_length. reflexivity.
    + right. do 2 eexists. split; [reflexivity|]. split; [destruct st; [contradiction|discriminate]|]. split; [apply derived_push, new_ids|]. rewrite map_app, new_lexs. reflexivity.
  - right. do 2 eexists. split; [reflexivity|]. split; [destruct st; discriminate|]. split; [replace (S n) with (n + 1) by lia; apply derived_push; reflexivity|].
    rewrite map_app. reflexivity.
Qed.
Lemma items_ok (l : L) items st n st' n' : st <> [] -> chk_items l items st n = inr (st', n') ->
  walk l items (map snd st) = Some (map snd st') /\ derived st n st' n' /\ st' <> [].
Proof.
  revert st n. induction items as [|[r|] items IH]; intros st n Hst E; [| |discriminate].
  - injection E as <- <-. split; [reflexivity|]. split; [apply derived_refl|exact Hst].
  - destruct (item_step l r items st n Hst) as [[E1 _]|(st1 & n1 & E1 & H1 & D1 & F1)]; rewrite E1 in E; [discriminate|].
    destruct (IH _ _ H1 E) as (W & D & N). split; [|split; [eapply derived_trans; eassumption|exact N]].
    rewrite (walk_cons _ _ _ _ _ F1 (map_nonnil _ _ H1)). exact W.
Qed.
Definition stops (l : L) (items : list (titem L)) (s0 : list L) (v : verdict L) : Prop :=
  (v = VLeft /\ exists before z after s, items = before ++ TItem (RInt z) :: after /\ walk l before s0 = Some s /\ follow_item l s (RInt z) = [])
  \/ (v = VOther l /\ exists before after s, items = before ++ TOther :: after /\ walk l before s0 = Some s).
Lemma items_stop (l : L) items st n v : st <> [] -> chk_items l items st n = inl v -> stops l items (map snd st) v.
Proof.
  revert st n. induction items as [|[r|] items IH]; intros st n Hst E; [discriminate| |].
  - destruct (item_step l r items st n Hst) as [(E1 & z & -> & F)|(st1 & n1 & E1 & H1 & D1 & F1)]; rewrite E1 in E.
    + injection E as <-. left. split; [reflexivity|]. exists [], z, items, (map snd st). auto.
    + destruct (IH _ _ H1 E) as [(Hv & before & z & after & s & -> & W & F)|(Hv & before & after & s & -> & W)].
      * left. split; [exact Hv|]. exists (TItem r :: before), z, after, s. split; [reflexivity|]. split; [|exact F]. rewrite (walk_cons _ _ _ _ _ F1 (map_nonnil _ _ H1)). exact W.
      * right. split; [exact Hv|]. exists (TItem r :: before), after, s. split; [reflexivity|]. rewrite (walk_cons _ _ _ _ _ F1 (map_nonnil _ _ H1)). exact W.
  - injection E as <-. right. split; [reflexivity|]. exists [], items, (map snd st). auto.
Qed.

(** ** The loop *)
Lemma add_id_in n circ x : In x (add_id n circ) <-> x = n \/ In x circ.
Proof.
  unfold add_id. destruct (existsb (Nat.eqb n) circ) eqn:E; [|cbn; intuition].
  apply existsb_exists in E as (y & H & Ey). apply Nat.eqb_eq in Ey. subst y. intuition. subst. exact H.
Qed.
Lemma mem_spec n circ : existsb (Nat.eqb n) circ = true <-> In n circ.
Proof. rewrite existsb_exists. split; [intros (y & H & E); apply Nat.eqb_eq in E; subst; exact H|intros H; exists n; split; [exact H|apply Nat.eqb_refl]]. Qed.
Lemma add_id_len n circ : length (add_id n circ) = if existsb (Nat.eqb n) circ then length circ else S (length circ).
Proof. unfold add_id. destruct existsb; reflexivity. Qed.

(** What the loop knows: [n] default targets were followed; a context that was met before still has the same contexts below it. *)
Record inv (l0 : L) (st : list ctx) (next : nat) (c : ctx) (circ : list nat) (n : nat) : Prop := {
  i_chain : chain [l0] n (map snd st);
  i_last : last_opt st = Some c;
  i_nodup : NoDup (map fst st);
  i_ids : Forall (fun c => fst c < next) st;
  i_circ : Forall (fun i => i < next) circ;
  i_len : length circ <= n;
  i_hist : forall i, In i circ -> exists m s, m < n /\ chain [l0] m (map snd s) /\ forall j d, nth_error st j = Some d -> fst d = i -> firstn (S j) st = s }.

Lemma nth_last {A} (l : list A) x : last_opt l = Some x -> nth_error l (length l - 1) = Some x /\ firstn (S (length l - 1)) l = l.
Proof.
  intros H. apply last_opt_some in H as [l' ->]. rewrite app_length. cbn [length]. replace (length l' + 1 - 1) with (length l') by lia.
  split; [rewrite nth_error_app2, Nat.sub_diag by lia; reflexivity|]. apply firstn_all2. rewrite app_length. cbn. lia.
Qed.
Lemma nodup_nth (st : list ctx) i j c d : NoDup (map fst st) -> nth_error st i = Some c -> nth_error st j = Some d -> fst c = fst d -> i = j.
Proof.
  intros N Hi Hj E. apply (proj1 (NoDup_nth_error (map fst st)) N).
  - rewrite map_length. apply nth_error_Some. congruence.
  - rewrite (map_nth_error fst _ _ Hi), (map_nth_error fst _ _ Hj), E. reflexivity.
Qed.
Lemma inv_nonnil l0 st next c circ n : inv l0 st next c circ n -> st <> [].
Proof. intros I ->. pose proof (i_last _ _ _ _ _ _ I). discriminate. Qed.

(** Of a derived stack the contexts with old numbers are where they were. *)
Lemma derived_old st next st' next' j d : Forall (fun c => fst c < next) st -> derived st next st' next' -> nth_error st' j = Some d -> fst d < next ->
  nth_error st j = Some d /\ firstn (S j) st' = firstn (S j) st.
Proof.
  intros F (_ & k & fr & -> & K & R & _) E Hd. destruct (Nat.lt_ge_cases j k) as [Hj|Hj].
  - assert (length (firstn k st) = k) as Lk by (rewrite firstn_length; lia). rewrite nth_error_app1 in E by lia. split.
    + rewrite <- (firstn_skipn k st). rewrite nth_error_app1 by lia. exact E.
    + rewrite firstn_app, Lk. replace (S j - k) with 0 by lia. rewrite firstn_O, app_nil_r, firstn_firstn, Nat.min_l by lia. reflexivity.
  - assert (length (firstn k st) = k) as Lk by (rewrite firstn_length; lia). rewrite nth_error_app2 in E by lia. apply nth_error_In in E.
    rewrite Forall_forall in R. specialize (R _ E). cbn in R. lia.
Qed.
Lemma derived_nodup st next st' next' : NoDup (map fst st) -> Forall (fun c => fst c < next) st -> derived st next st' next' ->
  NoDup (map fst st') /\ Forall (fun c => fst c < next') st'.
Proof.
  intros N F (H & k & fr & -> & K & R & Nf). split.
  - rewrite map_app, <- firstn_map. apply NoDup_app_; [apply NoDup_firstn_; exact N|exact Nf|]. intros x Hx Hy.
    assert (In x (map fst st)) as Hx' by (rewrite <- (firstn_skipn k (map fst st)), in_app_iff; auto).
    apply in_map_iff in Hx' as (c1 & <- & I1). apply in_map_iff in Hy as (c2 & E2 & I2).
    rewrite Forall_forall in F, R. specialize (F _ I1). specialize (R _ I2). cbn in *. lia.
  - apply Forall_app. split; [eapply Forall_impl; [|apply Forall_firstn_; exact F]; cbn; lia|eapply Forall_impl; [|exact R]; cbn; lia].
Qed.

(** One round. *)
Lemma round l0 st next c circ n target st' next' new :
  inv l0 st next c circ n -> default_of (snd c) = Some target -> chk_items (snd c) target st next = inr (st', next') -> last_opt st' = Some new ->
  inv l0 st' next' new (add_id (fst c) circ) (S n)
  /\ (In (fst new) (add_id (fst c) circ) -> endless default_of [l0])
  /\ (In (fst new) (add_id (fst c) circ) -> fst new <> fst c -> length st' < length st).
Proof.
  intros I Ed E El. pose proof (inv_nonnil _ _ _ _ _ _ I) as Hne. destruct I as [Ic Ila In_ Ii Ici Ile Ih].
  destruct (items_ok _ _ _ _ _ _ Hne E) as (W & D & N').
  assert (Hc : last_opt (map snd st) = Some (snd c)). { apply last_opt_some in Ila as [a ->]. rewrite map_app. apply last_opt_app. }
  assert (Hch : chain [l0] (S n) (map snd st')) by (eapply chain_next; eassumption).
  destruct (derived_nodup _ _ _ _ In_ Ii D) as [N2 F2]. destruct (nth_last _ _ Ila) as [Hla Hfi]. destruct (nth_last _ _ El) as [Hln Hfn].
  assert (Hci : fst c < next). { rewrite Forall_forall in Ii. apply (Ii c). eapply nth_error_In; exact Hla. }
  assert (Hold : forall i, In i (add_id (fst c) circ) -> i < next). { intros i Hi. apply add_id_in in Hi as [-> | Hi]; [exact Hci|]. rewrite Forall_forall in Ici. exact (Ici i Hi). }
  assert (Hhist : forall i, In i (add_id (fst c) circ) -> exists m s, m < S n /\ chain [l0] m (map snd s) /\ forall j d, nth_error st' j = Some d -> fst d = i -> firstn (S j) st' = s).
  { intros i Hi. pose proof (Hold i Hi) as Hlt. apply add_id_in in Hi as [-> | Hi].
    - exists n, st. split; [lia|]. split; [exact Ic|]. intros j d Ej Edj. destruct (derived_old _ _ _ _ j d Ii D Ej ltac:(lia)) as [E1 ->].
      rewrite (nodup_nth st j (length st - 1) d c In_ E1 Hla Edj). exact Hfi.
    - destruct (Ih i Hi) as (m & s & Hm & Hs & Hj). exists m, s. split; [lia|]. split; [exact Hs|]. intros j d Ej Edj.
      destruct (derived_old _ _ _ _ j d Ii D Ej ltac:(lia)) as [E1 ->]. exact (Hj j d E1 Edj). }
  split; [|split].
  - constructor; [exact Hch|exact El|exact N2|exact F2| |rewrite add_id_len; destruct existsb; lia|exact Hhist].
    rewrite Forall_forall. intros i Hi. destruct D as (D & _). specialize (Hold i Hi). lia.
  - intros Hi. destruct (Hhist _ Hi) as (m & s & Hm & Hs & Hj). specialize (Hj _ _ Hln eq_refl). rewrite Hfn in Hj. subst s. exact (repeats _ _ _ _ Hm Hs Hch).
  - intros Hi Hd. destruct (derived_old _ _ _ _ _ _ Ii D Hln (Hold _ Hi)) as [E1 E2].
    assert (length st' - 1 < length st) by (apply nth_error_Some; congruence).
    assert (length st' <> 0) by (destruct st'; [contradiction|discriminate]).
    destruct (Nat.eq_dec (length st') (length st)) as [El2|]; [|lia]. exfalso. rewrite El2, Hla in E1. injection E1 as ->. contradiction.
Qed.

Definition says (l0 : L) (v : verdict L) : Prop :=
  match v with
  | VEnd => comes_to_end default_of [l0]
  | VLeft => leaves_root default_of [l0]
  | VOther _ => meets_other default_of [l0]
  | VSelf _ | VHandled _ => endless default_of [l0]
  | VRunaway _ => exists n stack, 100 < n /\ chain [l0] n stack
  end.
Lemma loop_says fuel : forall l0 st next c circ n warn target v,
  inv l0 st next c circ n -> (warn = true -> endless default_of [l0]) -> default_of (snd c) = Some target ->
  chk_loop default_of fuel st next c circ warn target = Some v -> says l0 v.
Proof.
  induction fuel as [|fuel IH]; intros l0 st next c circ n warn target v I Hw Ed E; [discriminate|].
  cbn [chk_loop] in E. pose proof (inv_nonnil _ _ _ _ _ _ I) as Hne.
  assert (Hc : last_opt (map snd st) = Some (snd c)). { pose proof (i_last _ _ _ _ _ _ I) as Il. apply last_opt_some in Il as [a ->]. rewrite map_app. apply last_opt_app. }
  destruct (chk_items (snd c) target st next) as [v0|[st' next']] eqn:Ei.
  - injection E as <-. destruct (items_stop _ _ _ _ _ Hne Ei) as [(-> & before & z & after & s & -> & W & F)|(-> & before & after & s & -> & W)]; cbn [says].
    + exists n, (map snd st), (snd c), before, z, after, s. split; [exact (i_chain _ _ _ _ _ _ I)|]. auto.
    + exists n, (map snd st), (snd c), before, after, s. split; [exact (i_chain _ _ _ _ _ _ I)|]. auto.
  - destruct (last_opt st') as [new|] eqn:El; [|discriminate]. destruct (round _ _ _ _ _ _ _ _ _ _ I Ed Ei El) as (I' & Hr & _).
    destruct (fst new =? fst c) eqn:Es.
    + injection E as <-. apply Nat.eqb_eq in Es. cbn [says]. apply Hr. apply add_id_in. auto.
    + set (w' := warn || existsb (Nat.eqb (fst new)) (add_id (fst c) circ)) in *.
      assert (Hw' : w' = true -> endless default_of [l0]). { intros H. apply orb_prop in H as [H|H]; [exact (Hw H)|]. apply Hr, mem_spec, H. }
      destruct (100 <? length (add_id (fst c) circ)) eqn:Eg.
      * injection E as <-. destruct w' eqn:Ew; cbn [says]; [exact (Hw' eq_refl)|]. exists (S n), (map snd st').
        pose proof (i_len _ _ _ _ _ _ I'). split; [lia|]. exact (i_chain _ _ _ _ _ _ I').
      * destruct (default_of (snd new)) as [target'|] eqn:Ed'; [exact (IH _ _ _ _ _ _ _ _ _ I' Hw' Ed' E)|].
        injection E as <-. cbn [says]. exists (S n), (map snd st'), (snd new). split; [exact (i_chain _ _ _ _ _ _ I')|]. split; [|exact Ed'].
        apply last_opt_some in El as [a ->]. rewrite map_app. apply last_opt_app.
Qed.
Lemma inv_init l0 : inv l0 [(0, l0)] 1 (0, l0) [] 0.
Proof.
  constructor; [constructor|reflexivity|repeat constructor; cbn; tauto|repeat constructor|constructor|cbn; lia|intros i []].
Qed.
Lemma verdict_says l v : gives default_of l v -> says l v.
Proof. intros (items & fuel & Ed & E). refine (loop_says fuel l _ _ _ _ _ false _ _ (inv_init l) _ Ed E). discriminate. Qed.

Lemma loop_ends : forall a b l0 st next c circ n warn target,
  inv l0 st next c circ n -> default_of (snd c) = Some target -> 101 <= length (add_id (fst c) circ) + a -> length st <= b ->
  exists fuel v, chk_loop default_of fuel st next c circ warn target = Some v.
Proof.
  induction a as [|a IHa]; induction b as [|b IHb]; intros l0 st next c circ n warn target I Ed Ha Hb;
    pose proof (inv_nonnil _ _ _ _ _ _ I) as Hne; try (destruct st; [contradiction|cbn in Hb; lia]).
  all: destruct (chk_items (snd c) target st next) as [v0|[st' next']] eqn:Ei; [exists 1, v0; cbn [chk_loop]; rewrite Ei; reflexivity|].
  all: destruct (items_ok _ _ _ _ _ _ Hne Ei) as (_ & _ & N').
  all: destruct (last_opt st') as [new|] eqn:El; [|apply last_opt_none in El; contradiction].
  all: destruct (round _ _ _ _ _ _ _ _ _ _ I Ed Ei El) as (I' & _ & Hd).
  all: destruct (fst new =? fst c) eqn:Es; [eexists 1, _; cbn [chk_loop]; rewrite Ei, El, Es; reflexivity|].
  all: destruct (100 <? length (add_id (fst c) circ)) eqn:Eg; [eexists 1, _; cbn [chk_loop]; rewrite Ei, El, Es, Eg; reflexivity|].
  - lia.
  - destruct (default_of (snd new)) as [target'|] eqn:Ed'; [|eexists 1, _; cbn [chk_loop]; rewrite Ei, El, Es, Eg, Ed'; reflexivity].
    set (w' := warn || existsb (Nat.eqb (fst new)) (add_id (fst c) circ)).
    assert (exists fuel v, chk_loop default_of fuel st' next' new (add_id (fst c) circ) w' target' = Some v) as (fuel & v & E).
    { destruct (existsb (Nat.eqb (fst new)) (add_id (fst c) circ)) eqn:Em.
      - apply (IHb _ _ _ _ _ _ _ _ I' Ed'); [rewrite (add_id_len (fst new)), Em; exact Ha|]. apply mem_spec in Em. specialize (Hd Em ltac:(lia)). lia.
      - apply (IHa (length st') _ _ _ _ _ _ _ _ I' Ed'); [rewrite (add_id_len (fst new)), Em; lia|lia]. }
    exists (S fuel), v. cbn [chk_loop]. rewrite Ei, El, Es, Eg, Ed'. exact E.
Qed.
Lemma check_ends l items : default_of l = Some items -> exists v, gives default_of l v.
Proof.
  intros Ed. destruct (loop_ends 101 1 l [(0, l)] 1 (0, l) [] 0 false items (inv_init l) Ed) as (fuel & v & E); [cbn; lia|cbn; lia|].
  exists v, items, fuel. auto.
Qed.

(** The four ways to go exclude each other. *)
Lemma ends_not_endless start : comes_to_end default_of start -> ~ endless default_of start.
Proof.
  intros (n & s & l & H & El & Ed) He. destruct (He (S n)) as [t Ht]. inversion Ht as [|n0 s0 l0 items0 s0' H0 El0 Ed0 Ew0]; subst.
  rewrite (chain_det _ _ _ _ H0 H) in El0. congruence.
Qed.
Lemma walk_app (l : L) a b s : walk l (a ++ b) s = match walk l a s with Some s => walk l b s | None => None end.
Proof. revert s. induction a as [|[r|] a IH]; intros s; cbn [app walk]; [reflexivity| |reflexivity]. destruct (follow_item l s r); [reflexivity|apply IH]. Qed.
Lemma left_not_endless start : leaves_root default_of start -> ~ endless default_of start.
Proof.
  intros (n & s & l & before & z & after & s1 & H & El & Ed & W & F) He. destruct (He (S n)) as [t Ht]. inversion Ht as [|n0 s0 l0 items0 s0' H0 El0 Ed0 Ew0]; subst.
  rewrite (chain_det _ _ _ _ H0 H) in *. assert (l0 = l) by congruence. subst l0. rewrite Ed in Ed0. injection Ed0 as <-. rewrite walk_app, W in Ew0. cbn [walk] in Ew0. rewrite F in Ew0. discriminate.
Qed.
Lemma other_not_endless start : meets_other default_of start -> ~ endless default_of start.
Proof.
  intros (n & s & l & before & after & s1 & H & El & Ed & W) He. destruct (He (S n)) as [t Ht]. inversion Ht as [|n0 s0 l0 items0 s0' H0 El0 Ed0 Ew0]; subst.
  rewrite (chain_det _ _ _ _ H0 H) in *. assert (l0 = l) by congruence. subst l0. rewrite Ed in Ed0. injection Ed0 as <-. rewrite walk_app, W in Ew0. discriminate.
Qed.
Lemma endless_reported l v : gives default_of l v -> endless default_of [l] -> reported v.
Proof.
  intros G He. apply verdict_says in G. destruct v; cbn [says] in G; unfold reported; cbn; auto.
  - destruct (left_not_endless _ G He).
  - destruct (ends_not_endless _ G He).
Qed.

(** ** Any open lexicons *)
Lemma follow_lift (l : L) r pre s s1 : follow_item l s r = s1 -> s1 <> [] -> follow_item l (pre ++ s) r = pre ++ s1.
Proof.
  intros <- Hne. destruct r as [z|l']; cbn [follow_item] in *; [destruct (z <? 0)%Z eqn:Ez|]; [|apply app_assoc_reverse|apply app_assoc_reverse].
  apply drop_last_app. destruct (Nat.le_gt_cases (Z.to_nat (- z)) (length s)); [assumption|]. exfalso. apply Hne. apply drop_last_all. lia.
Qed.
Lemma walk_nonnil (l : L) items s s1 : walk l items s = Some s1 -> s <> [] -> s1 <> [].
Proof.
  revert s. induction items as [|[r|] items IH]; intros s E Hs; cbn [walk] in E; [congruence| |discriminate].
  destruct (follow_item l s r) as [|x a] eqn:Ef; [discriminate|]. exact (IH _ E ltac:(discriminate)).
Qed.
Lemma walk_lift (l : L) items pre s s1 : walk l items s = Some s1 -> walk l items (pre ++ s) = Some (pre ++ s1).
Proof.
  revert s. induction items as [|[r|] items IH]; intros s E; cbn [walk] in E; [injection E as <-; reflexivity| |discriminate].
  destruct (follow_item l s r) as [|x a] eqn:Ef; [discriminate|]. rewrite (walk_cons l r items (pre ++ s) (pre ++ x :: a)).
  - exact (IH _ E).
  - apply follow_lift; [exact Ef|discriminate].
  - destruct pre; discriminate.
Qed.
Lemma last_lift {A} (pre s : list A) x : last_opt s = Some x -> last_opt (pre ++ s) = Some x.
Proof. intros H. apply last_opt_some in H as [a ->]. rewrite app_assoc. apply last_opt_app. Qed.
Lemma chain_lift pre start n s : chain start n s -> chain (pre ++ start) n (pre ++ s).
Proof.
  induction 1 as [|n s l items s' H IH El Ed Ew]; [constructor|]. eapply chain_next; [exact IH|apply last_lift; exact El|exact Ed|]. apply walk_lift. exact Ew.
Qed.
Lemma chain_trans start n s m t : chain start n s -> chain s m t -> chain start (n + m) t.
Proof.
  intros H1. induction 1 as [|m s1 l items s2 H IH El Ed Ew]; [rewrite Nat.add_0_r; exact H1|]. rewrite Nat.add_succ_r. eapply chain_next; eassumption.
Qed.
(** Leaving only. *)
Lemma walk_pops (l : L) items s s1 : Forall (fun i => match i with TItem (RInt z) => (z < 0)%Z | _ => False end) items -> walk l items s = Some s1 -> length s1 <= length s.
Proof.
  intros F. revert s. induction F as [|i items Hi F IH]; intros s E; [injection E as <-; lia|]. destruct i as [[z|l']|]; [|contradiction|contradiction].
  cbn [walk follow_item] in E. assert ((z <? 0)%Z = true) as Ez by lia. rewrite Ez in E.
  destruct (drop_last (Z.to_nat (- z)) s) as [|x a] eqn:Ed; [discriminate|]. apply IH in E. rewrite <- Ed, drop_last_length in E. lia.
Qed.
Lemma walk_splits (l : L) items s : Forall (fun i => match i with TItem (RInt z) => (z < 0)%Z | _ => False end) items -> walk l items s = None ->
  exists before z after s1, items = before ++ TItem (RInt z) :: after /\ walk l before s = Some s1 /\ follow_item l s1 (RInt z) = [].
Proof.
  intros F. revert s. induction F as [|i items Hi F IH]; intros s E; [discriminate|]. destruct i as [[z|l']|]; [|contradiction|contradiction].
  cbn [walk] in E. destruct (follow_item l s (RInt z)) as [|x a] eqn:Ed.
  - exists [], z, items, s. auto.
  - destruct (IH _ E) as (before & z1 & after & s1 & -> & W & E1). exists (TItem (RInt z) :: before), z1, after, s1. split; [reflexivity|]. split; [|exact E1]. cbn [walk]. rewrite Ed. exact W.
Qed.
Lemma continue start n s : chain start n s -> comes_to_end default_of s \/ leaves_root default_of s -> comes_to_end default_of start \/ leaves_root default_of start.
Proof.
  intros H [(m & s1 & l & H1 & El & Ed)|(m & s1 & l & before & z & after & s2 & H1 & H2)].
  - left. exists (n + m), s1, l. split; [exact (chain_trans _ _ _ _ _ H H1)|]. auto.
  - right. exists (n + m), s1, l, before, z, after, s2. split; [exact (chain_trans _ _ _ _ _ H H1)|]. exact H2.
Qed.
Lemma unreported_ends : (forall l items, default_of l = Some items -> one_way items) -> (forall l v, gives default_of l v -> ~ reported v) ->
  forall stack, stack <> [] -> comes_to_end default_of stack \/ leaves_root default_of stack.
Proof.
  intros Hone Hrep stack. remember (length stack) as k. revert stack Heqk. induction k as [k IH] using lt_wf_ind. intros stack -> Hne.
  destruct (last_opt stack) as [l|] eqn:El; [|apply last_opt_none in El; contradiction].
  destruct (default_of l) as [items|] eqn:Ed; [|left; exists 0, stack, l; split; [constructor|auto]].
  destruct (check_ends l items Ed) as [v G]. pose proof (Hrep l v G) as Hn. apply verdict_says in G. apply last_opt_some in El as [pre ->].
  destruct v; cbn [says] in G; unfold reported in Hn; cbn in Hn; try (exfalso; apply Hn; auto; fail).
  - (* the target leaves [l] and what was entered from there *)
    destruct G as (n & s & l1 & before & z & after & s1 & H & El1 & Ed1 & W & F). apply (chain_lift pre) in H.
    assert (Hs1 : s1 <> []). { apply (walk_nonnil _ _ _ _ W). intros ->. discriminate. }
    destruct (Hone _ _ Ed1) as [Hp|Hp].
    + destruct (walk l1 (before ++ TItem (RInt z) :: after) (pre ++ s)) as [t|] eqn:Et.
      * assert (Hlen : length t < length (pre ++ [l])).
        { rewrite walk_app, (walk_lift _ _ pre _ _ W) in Et. apply Forall_app in Hp as [_ Hp]. inversion Hp as [|i0 l0 Hz Hp']; subst.
          cbn [walk follow_item] in Et, F. assert ((z <? 0)%Z = true) as Ez by lia. rewrite Ez in Et, F.
          destruct (drop_last (Z.to_nat (- z)) (pre ++ s1)) as [|x a] eqn:Edl; [discriminate|]. apply (walk_pops _ _ _ _ Hp') in Et.
          rewrite <- Edl, drop_last_length in Et. apply (f_equal (@length L)) in F. rewrite drop_last_length in F. cbn [length] in F.
          rewrite app_length in Et |- *. cbn [length]. lia. }
        assert (Ht : chain (pre ++ [l]) (S n) t). { eapply chain_next; [exact H|apply last_lift; exact El1|exact Ed1|exact Et]. }
        apply (continue _ _ _ Ht). apply (IH _ Hlen t eq_refl). apply (walk_nonnil _ _ _ _ Et). intros E0. apply app_eq_nil in E0 as [_ ->]. discriminate.
      * right. destruct (walk_splits _ _ _ Hp Et) as (b & z1 & a & s2 & Eb & Wb & Fb). exists n, (pre ++ s), l1, b, z1, a, s2.
        rewrite <- Eb. split; [exact H|]. split; [apply last_lift; exact El1|]. auto.
    + exfalso. apply Forall_app in Hp as [_ Hp]. inversion Hp as [|i0 l0 Hz Hp']; subst. cbn in Hz. cbn [follow_item] in F. assert ((z <? 0)%Z = false) as Ez by lia. rewrite Ez in F.
      apply app_eq_nil in F as [F _]. contradiction.
  - left. destruct G as (n & s & l1 & H & El1 & Ed1). exists n, (pre ++ s), l1. split; [apply chain_lift; exact H|]. split; [apply last_lift; exact El1|exact Ed1].
Qed.
End Proofs.
