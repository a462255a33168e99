(** Proofs about the order of the rules and the combined properties. *)
From Coq Require Import Sorting.Permutation Sorting.Sorted.
From Verif Require Import Base CssModel CssSpec CssProofs CssMatchProofs.

(** ** Specificity *)
Lemma spec_lt_iff : forall a b, spec_lt a b = true <-> lex_lt a b.
Proof.
  intros [[a1 a2] a3] [[b1 b2] b3]. unfold spec_lt, lex_lt.
  rewrite orb_true_iff, andb_true_iff, orb_true_iff, andb_true_iff, !Nat.ltb_lt, !Nat.eqb_eq. reflexivity.
Qed.
Lemma spec_lt_not : forall a b, spec_lt a b = false <-> ~ lex_lt a b.
Proof.
  intros a b. split.
  - intros E H. apply spec_lt_iff in H. congruence.
  - intros H. destruct (spec_lt a b) eqn:E; [apply spec_lt_iff in E; contradiction | reflexivity].
Qed.
Lemma lex_total : forall a b, lex_lt a b \/ a = b \/ lex_lt b a.
Proof.
  intros [[a1 a2] a3] [[b1 b2] b3]. unfold lex_lt.
  destruct (lt_eq_lt_dec a1 b1) as [[L | ->] | L]; [left; lia | | right; right; lia].
  destruct (lt_eq_lt_dec a2 b2) as [[L | ->] | L]; [left; lia | | right; right; lia].
  destruct (lt_eq_lt_dec a3 b3) as [[L | ->] | L]; [left; lia | right; left; reflexivity | right; right; lia].
Qed.
Lemma lex_trans : forall a b c, lex_lt a b -> lex_lt b c -> lex_lt a c.
Proof. intros [[a1 a2] a3] [[b1 b2] b3] [[c1 c2] c3]. unfold lex_lt. lia. Qed.
Lemma lex_irrefl : forall a, ~ lex_lt a a.
Proof. intros [[a1 a2] a3]. unfold lex_lt. lia. Qed.

Lemma spec_of_counts : forall l, spec_of l = spec_counts l.
Proof.
  induction l as [| i l IH]; [reflexivity |].
  destruct i as [s | o]; cbn [spec_of]; rewrite IH; [| reflexivity].
  unfold spec_counts, sels_of. cbn [flat_map app]. rewrite !app_length.
  f_equal; [f_equal |]; lia.
Qed.
Lemma max_spec_const : forall l s, l <> [] -> (forall x, In x l -> x = s) -> max_spec l = Some s.
Proof.
  induction l as [| x l IH]; intros s N H; [congruence |]. cbn [max_spec].
  assert (x = s) as -> by (apply H; left; reflexivity).
  destruct l as [| y l]; [reflexivity |].
  rewrite (IH s); [| discriminate | intros z Hz; apply H; right; exact Hz].
  destruct (spec_lt s s); reflexivity.
Qed.

(** ** Sorting with places *)
Section Sort.
Variable R : Type.
Definition tagged := (spec3 * (nat * R))%type.
Definition untag (t : tagged) : spec3 * R := (fst t, snd (snd t)).
Definition place (t : tagged) : nat := fst (snd t).
Definition below (a b : tagged) : Prop := lex_lt (fst a) (fst b) \/ (fst a = fst b /\ place a < place b).

Lemma below_trans : forall a b c, below a b -> below b c -> below a c.
Proof.
  unfold below. intros a b c [H1 | [E1 L1]] [H2 | [E2 L2]].
  - left. eapply lex_trans; eassumption.
  - left. rewrite <- E2. exact H1.
  - left. rewrite E1. exact H2.
  - right. split; [congruence | lia].
Qed.
Lemma insert_untag : forall x l, insert_rule (untag x) (map untag l) = map untag (insert_rule x l).
Proof.
  intros x l. induction l as [| y l IH]; [reflexivity |]. cbn [map insert_rule].
  change (fst (untag y)) with (fst y). change (fst (untag x)) with (fst x).
  destruct (spec_lt (fst y) (fst x)); [cbn [map]; rewrite IH; reflexivity | reflexivity].
Qed.
Lemma sort_untag : forall l, sort_rules (map untag l) = map untag (sort_rules l).
Proof.
  induction l as [| x l IH]; [reflexivity |]. cbn [map sort_rules]. rewrite IH. apply insert_untag.
Qed.
Lemma insert_perm : forall (x : tagged) l, Permutation (insert_rule x l) (x :: l).
Proof.
  intros x l. induction l as [| y l IH]; [reflexivity |]. cbn [insert_rule].
  destruct (spec_lt (fst y) (fst x)); [| reflexivity].
  rewrite IH. apply perm_swap.
Qed.
Lemma sort_perm : forall l : list tagged, Permutation (sort_rules l) l.
Proof. induction l as [| x l IH]; [reflexivity |]. cbn [sort_rules]. rewrite insert_perm, IH. reflexivity. Qed.
Lemma insert_sorted : forall x l, (forall y, In y l -> place x < place y) -> StronglySorted below l ->
  StronglySorted below (insert_rule x l).
Proof.
  intros x l. induction l as [| y l IH]; intros P H; cbn [insert_rule].
  - constructor; [constructor | constructor].
  - inversion H as [| z m Hs Hf]; subst. destruct (spec_lt (fst y) (fst x)) eqn:E.
    + constructor.
      * apply IH; [intros z Hz; apply P; right; exact Hz | exact Hs].
      * rewrite Forall_forall in *. intros z Hz. apply (Permutation_in z (insert_perm x l)) in Hz.
        destruct Hz as [<- | Hz]; [left; apply spec_lt_iff; exact E | auto].
    + assert (below x y) as B.
      { apply spec_lt_not in E. destruct (lex_total (fst x) (fst y)) as [L | [L | L]]; [left; exact L | | contradiction].
        right. split; [exact L | apply P; left; reflexivity]. }
      constructor; [exact H |]. constructor; [exact B |].
      rewrite Forall_forall in *. intros z Hz. eapply below_trans; [exact B | auto].
Qed.
Lemma sort_sorted : forall l, StronglySorted (fun a b => place a < place b) l -> StronglySorted below (sort_rules l).
Proof.
  intros l H. induction H as [| x l H IH F]; [constructor |]. cbn [sort_rules]. apply insert_sorted; [| exact IH].
  intros y Hy. rewrite Forall_forall in F. apply F. apply (Permutation_in y (sort_perm l)). exact Hy.
Qed.
End Sort.
Arguments untag {R}.
Arguments place {R}.
Arguments below {R}.

Lemma sorted_snoc : forall A (P : A -> A -> Prop) l x, StronglySorted P l -> (forall y, In y l -> P y x) ->
  StronglySorted P (l ++ [x]).
Proof.
  intros A P l x H. induction H as [| y l H IH F]; intros Hx; cbn [app].
  - constructor; [constructor | constructor].
  - constructor; [apply IH; intros z Hz; apply Hx; right; exact Hz |].
    rewrite Forall_forall in *. intros z Hz. apply in_app_or in Hz as [Hz | [<- | []]]; [auto |].
    apply Hx. left. reflexivity.
Qed.
Lemma sorted_rev : forall A (P : A -> A -> Prop) l, StronglySorted P l -> StronglySorted (fun a b => P b a) (rev l).
Proof.
  intros A P l H. induction H as [| x l H IH F]; [constructor |]. cbn [rev]. apply sorted_snoc; [exact IH |].
  intros y Hy. apply in_rev in Hy. rewrite Forall_forall in F. auto.
Qed.
Lemma sorted_filter : forall A (P : A -> A -> Prop) f l, StronglySorted P l -> StronglySorted P (filter f l).
Proof.
  intros A P f l H. induction H as [| x l H IH F]; cbn [filter]; [constructor |].
  destruct (f x); [| exact IH]. constructor; [exact IH |]. rewrite Forall_forall in *.
  intros y Hy. apply filter_In in Hy as [Hy _]. auto.
Qed.

Fixpoint tag {R} (key : R -> spec3) (n : nat) (l : list R) : list (tagged R) :=
  match l with [] => [] | r :: l => (key r, (n, r)) :: tag key (S n) l end.
Lemma tag_In : forall R (key : R -> spec3) l n k i r,
  In (k, (i, r)) (tag key n l) <-> k = key r /\ n <= i /\ nth_error l (i - n) = Some r.
Proof.
  intros R key l. induction l as [| x l IH]; intros n k i r; cbn [tag In].
  - split; [intros [] |]. intros (_ & _ & E). destruct (i - n); discriminate.
  - rewrite IH. split.
    + intros [E | (-> & L & E)].
      * injection E as <- <- <-. rewrite Nat.sub_diag. auto.
      * split; [reflexivity |]. split; [lia |]. replace (i - n) with (S (i - S n)) by lia. exact E.
    + intros (-> & L & E). destruct (Nat.eq_dec i n) as [-> | N].
      * left. rewrite Nat.sub_diag in E. cbn [nth_error] in E. injection E as ->. reflexivity.
      * right. split; [reflexivity |]. split; [lia |]. replace (i - n) with (S (i - S n)) in E by lia. exact E.
Qed.
Lemma tag_sorted : forall R (key : R -> spec3) l n, StronglySorted (fun a b => place a < place b) (tag key n l).
Proof.
  intros R key l. induction l as [| x l IH]; intros n; cbn [tag]; [constructor |].
  constructor; [apply IH |]. rewrite Forall_forall. intros [k [i r]] H. apply tag_In in H as (_ & L & _).
  unfold place. cbn [fst snd]. lia.
Qed.
Lemma tag_untag : forall R (key : R -> spec3) l n, map untag (tag key n l) = map (fun r => (key r, r)) l.
Proof. intros R key l. induction l as [| x l IH]; intros n; cbn [tag map]; [reflexivity |]. rewrite IH. reflexivity. Qed.

Section Rules.
Variable space : nat -> bool.
Variable lower : str -> str.
Variable V : Type.

(** ** The rules of a sheet *)
Lemma get_rules_app : forall a b, get_rules V (a ++ b) = get_rules V a ++ get_rules V b.
Proof. intros a b. unfold get_rules. apply flat_map_app. Qed.
Lemma listed_rules : forall es rs, listed es rs -> rs = get_rules V es.
Proof.
  intros es rs H. induction H as [| r es rs H IH | k es rs H IH | k c ins es rs1 rs2 H1 IH1 H2 IH2].
  - reflexivity.
  - unfold get_rules in *. cbn [flat_map get_rules1]. rewrite IH. reflexivity.
  - unfold get_rules in *. cbn [flat_map get_rules1]. exact IH.
  - unfold get_rules in *. cbn [flat_map get_rules1]. rewrite IH1, IH2. reflexivity.
Qed.
Lemma listed_total_1 : forall (e : entry V) es rs, listed es rs ->
  exists r, listed (e :: es) (r ++ rs).
Proof.
  fix IH 1. intros e es rs H. destruct e as [r | k | k c ins].
  - exists [r]. constructor. exact H.
  - exists []. constructor. exact H.
  - assert (exists r, listed ins r) as [r Hr].
    { clear - IH. induction ins as [| e ins [r Hr]]; [exists []; constructor |].
      destruct (IH e ins r Hr) as [r' Hr']. exists (r' ++ r). exact Hr'. }
    exists r. constructor; assumption.
Qed.
Lemma listed_total : forall es : list (entry V), exists rs, listed es rs.
Proof.
  induction es as [| e es [rs H]]; [exists []; constructor |].
  destruct (listed_total_1 e es rs H) as [r H']. exists (r ++ rs). exact H'.
Qed.

(** ** Values *)
Definition strip (v : list (pval V)) : list (pval V) :=
  match last_opt v with Some x => if is_important V x then removelast v else v | None => v end.
Definition imp (v : list (pval V)) : bool :=
  match last_opt v with Some x => is_important V x | None => false end.
Lemma last_opt_snoc : forall A (l : list A) x, last_opt (l ++ [x]) = Some x.
Proof. intros A l x. unfold last_opt. rewrite rev_app_distr. reflexivity. Qed.
Lemma marked_iff : forall v b w, v <> [] -> marked v b w <-> b = imp v /\ w = strip v.
Proof.
  intros v b w N. destruct v as [| x v _] using rev_ind; [congruence |].
  unfold imp, strip. rewrite last_opt_snoc, removelast_last. unfold marked.
  destruct x as [| y]; cbn [is_important].
  - split.
    + intros [[-> E] | (-> & E & H)].
      * apply app_inj_tail in E as [-> _]. auto.
      * exfalso. apply (H v). symmetry. exact E.
    + intros [-> ->]. left. auto.
  - split.
    + intros [[-> E] | (-> & E & H)].
      * apply app_inj_tail in E as [_ E]. discriminate.
      * auto.
    + intros [-> ->]. right. split; [reflexivity |]. split; [reflexivity |]. intros a E.
      apply app_inj_tail in E as [_ E]. discriminate.
Qed.

(** ** Combining *)
Lemma sget_sset : forall (W : Type) (d : list (str * W)) k k' v,
  sget (sset d k v) k' = if str_eqb k k' then Some v else sget d k'.
Proof.
  intros W d k k' v. induction d as [| [x w] d IH]; cbn [sset sget].
  - destruct (str_eqb k k'); reflexivity.
  - destruct (str_eqb x k) eqn:E.
    + apply str_eqb_eq in E. subst x. cbn [sget]. destruct (str_eqb k k'); reflexivity.
    + cbn [sget]. rewrite IH. destruct (str_eqb x k') eqn:E'; [| reflexivity].
      apply str_eqb_eq in E'. subst x. destruct (str_eqb k k') eqn:E2; [| reflexivity].
      apply str_eqb_eq in E2. subst k'. rewrite str_eqb_refl in E. discriminate.
Qed.
Definition values_of (k : str) (kvs : list (str * list (pval V))) : list (list (pval V)) :=
  map snd (filter (fun kv => str_eqb (fst kv) k) kvs).

Lemma add_props_after : forall k kvs res im, (forall kv, In kv kvs -> snd kv <> []) ->
  exists res' im', add_props V (res, im) kvs = Some (res', im') /\
  (forall w, sget res k = Some w ->
    sget res' k = Some (if smem k im then w
                        else match find imp (values_of k kvs) with Some v => strip v | None => w end)) /\
  (sget res k = None -> smem k im = false ->
    sget res' k = match values_of k kvs with
                  | [] => None
                  | v0 :: vs => Some (match find imp vs with Some v => strip v | None => strip v0 end)
                  end).
Proof.
  intros k kvs. induction kvs as [| [key v] kvs IH]; intros res im N.
  - exists res, im. cbn [add_props values_of filter map find]. split; [reflexivity |].
    split; [| auto]. intros w ->. destruct (smem k im); reflexivity.
  - assert (v <> []) as Nv by (apply (N (key, v)); left; reflexivity).
    assert (forall kv, In kv kvs -> snd kv <> []) as N' by (intros kv H; apply N; right; exact H).
    cbn [add_props add_prop].
    assert (exists l, last_opt v = Some l) as [l El].
    { destruct v as [| x v' _] using rev_ind; [congruence |]. exists x. apply last_opt_snoc. }
    rewrite El.
    assert ((if is_important V l then removelast v else v) = strip v) as -> by (unfold strip; rewrite El; reflexivity).
    assert (is_important V l = imp v) as -> by (unfold imp; rewrite El; reflexivity).
    unfold values_of. cbn [filter fst]. destruct (str_eqb key k) eqn:Ek.
    + apply str_eqb_eq in Ek. subst key. cbn [map snd find]. fold (values_of k kvs).
      destruct (sget res k) as [w0 |] eqn:Er.
      * destruct (imp v) eqn:Ei; cbn [andb].
        { destruct (smem k im) eqn:Em; cbn [negb].
          - destruct (IH res im N') as (res' & im' & E & H1 & H2). exists res', im'. split; [exact E |].
            split; [intros w Ew | discriminate]. rewrite Er, Em in H1. apply H1. exact Ew.
          - destruct (IH (sset res k (strip v)) (im ++ [k]) N') as (res' & im' & E & H1 & H2).
            exists res', im'. split; [exact E |]. split; [intros w Ew | discriminate].
            rewrite sget_sset, str_eqb_refl in H1. rewrite (H1 _ eq_refl).
            assert (smem k (im ++ [k]) = true) as -> by (apply smem_In, in_or_app; right; left; reflexivity).
            reflexivity. }
        { destruct (IH res im N') as (res' & im' & E & H1 & H2). exists res', im'. split; [exact E |].
          split; [intros w Ew | discriminate]. rewrite Er in H1. apply H1. exact Ew. }
      * destruct (IH (sset res k (strip v)) im N') as (res' & im' & E & H1 & H2). exists res', im'.
        split; [exact E |]. split; [discriminate |]. intros _ Em. rewrite sget_sset, str_eqb_refl, Em in H1.
        rewrite (H1 _ eq_refl). reflexivity.
    + fold (values_of k kvs).
      assert (forall x, sget (sset res key x) k = sget res k) as Es by (intros x; rewrite sget_sset, Ek; reflexivity).
      assert (smem k (im ++ [key]) = smem k im) as Em.
      { unfold smem. rewrite existsb_app. cbn [existsb]. rewrite orb_false_r.
        assert (str_eqb k key = false) as ->; [| apply orb_false_r].
        apply str_eqb_neq. intros C. apply str_eqb_neq in Ek. congruence. }
      destruct (sget res key) as [w0 |].
      * destruct (imp v && negb (smem key im)).
        { destruct (IH (sset res key (strip v)) (im ++ [key]) N') as (res' & im' & E & H1 & H2).
          exists res', im'. rewrite Es, Em in H1, H2. auto. }
        { apply IH. exact N'. }
      * destruct (IH (sset res key (strip v)) im N') as (res' & im' & E & H1 & H2).
        exists res', im'. rewrite Es in H1, H2. auto.
Qed.
Lemma properties_get : forall (rules : list (rule V)) ,
  (forall r k v, In r rules -> In (k, v) (r_props r) -> v <> []) ->
  exists res, properties V rules = Some res /\
  forall k, sget res k = match values_of k (flat_map r_props rules) with
                         | [] => None
                         | v0 :: vs => Some (match find imp vs with Some v => strip v | None => strip v0 end)
                         end.
Proof.
  intros rules N.
  assert (forall kv, In kv (flat_map r_props rules) -> snd kv <> []) as N'.
  { intros [k v] H. apply in_flat_map in H as (r & Hr & H). eapply N; eassumption. }
  unfold properties.
  destruct (add_props_after [] (flat_map r_props rules) [] [] N') as (res & im & E & _).
  exists res. rewrite E. split; [reflexivity |]. intros k.
  destruct (add_props_after k (flat_map r_props rules) [] [] N') as (res2 & im2 & E2 & _ & H).
  rewrite E in E2. injection E2 as <- <-. apply H; reflexivity.
Qed.
Lemma values_of_rules : forall k (rules : list (rule V)), (forall r, In r rules -> NoDup (map fst (r_props r))) ->
  values_of k (flat_map r_props rules) =
  flat_map (fun r => match sget (r_props r) k with Some v => [v] | None => [] end) rules.
Proof.
  intros k rules H. induction rules as [| r rules IH]; [reflexivity |]. cbn [flat_map].
  unfold values_of in *. rewrite filter_app, map_app, IH by (intros x Hx; apply H; right; exact Hx). f_equal.
  assert (NoDup (map fst (r_props r))) as N by (apply H; left; reflexivity). clear H IH.
  induction (r_props r) as [| [k' v] d IH]; [reflexivity |]. cbn [filter sget fst].
  cbn [map fst] in N. inversion N as [| x l Hn N']; subst. destruct (str_eqb k' k) eqn:E.
  - cbn [map snd]. f_equal. apply str_eqb_eq in E. subst k'. clear - Hn.
    induction d as [| [x w] d IHd]; [reflexivity |]. cbn [filter fst]. destruct (str_eqb x k) eqn:E.
    + apply str_eqb_eq in E. subst x. destruct Hn. left. reflexivity.
    + apply IHd. intros C. apply Hn. right. exact C.
  - apply IH. exact N'.
Qed.

(** ** Matching *)
Section Element.
Variable root : elem.
Variable p : epath.
Hypothesis D : dict_tree root.

Lemma readable_iff : forall l, readable l ->
  exists b, match_selectors space lower root p l = Some b /\ (b = true <-> matches space lower root l p).
Proof.
  intros l (A & O & S1 & G). destruct (never_raises space lower root l A p O S1) as [b E]. exists b.
  split; [exact E |]. split.
  - intros ->. apply matches_sound; auto.
  - intros M. rewrite (matches_complete space lower root D l A p O S1 G M) in E. congruence.
Qed.
Lemma prelude_iff : forall pre, (forall l, In l pre -> readable l) ->
  exists b, match_prelude space lower root p pre = Some b /\
    (b = true <-> exists l, In l pre /\ matches space lower root l p).
Proof.
  induction pre as [| l pre IH]; intros H; cbn [match_prelude].
  - exists false. split; [reflexivity |]. split; [discriminate | intros (l & [] & _)].
  - destruct (readable_iff l) as (b & -> & Hb); [apply H; left; reflexivity |].
    destruct (IH (fun x Hx => H x (or_intror Hx))) as (b' & -> & Hb'). destruct b.
    + exists true. split; [reflexivity |]. split; [| reflexivity]. intros _. exists l. split; [left; reflexivity |].
      apply Hb. reflexivity.
    + exists b'. split; [reflexivity |]. rewrite Hb'. split.
      * intros (x & Hx & M). exists x. split; [right; exact Hx | exact M].
      * intros (x & [<- | Hx] & M); [apply Hb in M; discriminate | exists x; auto].
Qed.

Definition takes (r : rule V) : bool :=
  match match_prelude space lower root p (r_prelude r) with Some b => b | None => false end.
Lemma takes_iff : forall r : rule V, fair_rule r ->
  takes r = true <-> exists l, In l (r_prelude r) /\ matches space lower root l p.
Proof.
  intros r (_ & Hl & _). unfold takes. destruct (prelude_iff (r_prelude r) Hl) as (b & -> & Hb). exact Hb.
Qed.
Lemma select_filter : forall rules : list (rule V), (forall r, In r rules -> fair_rule r) ->
  select_element space lower V root p rules = Some (filter takes rules).
Proof.
  induction rules as [| r rules IH]; intros H; [reflexivity |]. cbn [select_element filter].
  assert (fair_rule r) as Fr by (apply H; left; reflexivity).
  rewrite IH by (intros x Hx; apply H; right; exact Hx). cbn [option_map]. unfold takes.
  destruct Fr as (_ & Hl & _). destruct (prelude_iff (r_prelude r) Hl) as (b & -> & _). reflexivity.
Qed.

Definition key_of (r : rule V) : spec3 :=
  match specificity (r_prelude r) with Some s => s | None => (0, 0, 0) end.
Lemma fair_key : forall r : rule V, fair_rule r ->
  specificity (r_prelude r) = Some (key_of r) /\ forall l, In l (r_prelude r) -> spec_counts l = key_of r.
Proof.
  intros r (N & _ & U & _). destruct (r_prelude r) as [| l0 pre] eqn:E; [congruence |].
  assert (specificity (l0 :: pre) = Some (spec_counts l0)) as Es.
  { unfold specificity. apply max_spec_const; [discriminate |]. intros x Hx. apply in_map_iff in Hx as (l & <- & Hl).
    rewrite spec_of_counts. apply U; [exact Hl | left; reflexivity]. }
  unfold key_of. rewrite E, Es. split; [reflexivity |]. intros l Hl. apply U; [exact Hl | left; reflexivity].
Qed.
Lemma css_spec_iff : forall (r : rule V) s, fair_rule r ->
  css_spec space lower root p r s <-> takes r = true /\ s = key_of r.
Proof.
  intros r s F. rewrite (takes_iff r F). destruct (fair_key r F) as [_ K]. unfold css_spec. split.
  - intros [(l & Hl & M & <-) _]. split; [exists l; auto |]. apply K. exact Hl.
  - intros [(l & Hl & M) ->]. split; [exists l; auto |]. intros l' Hl' _. rewrite (K l' Hl'). apply lex_irrefl.
Qed.
Lemma with_keys_fair : forall rules : list (rule V), (forall r, In r rules -> fair_rule r) ->
  with_keys V rules = Some (map (fun r => (key_of r, r)) rules).
Proof.
  induction rules as [| r rules IH]; intros H; [reflexivity |]. cbn [with_keys map].
  destruct (fair_key r (H r (or_introl eq_refl))) as [-> _].
  rewrite IH by (intros x Hx; apply H; right; exact Hx). reflexivity.
Qed.

(** The rules of the style, with their specificity and place: in order. *)
Lemma style_order : forall es rules, listed es rules -> (forall r, In r rules -> fair_rule r) ->
  exists T, style V es = Some (map (fun t => snd (snd t)) T) /\
    (forall k i r, In (k, (i, r)) T <-> k = key_of r /\ nth_error rules i = Some r) /\
    StronglySorted (fun a b => below b a) T.
Proof.
  intros es rules L F. exists (rev (sort_rules (tag key_of 0 rules))). split; [| split].
  - unfold style. rewrite <- (listed_rules es rules L), (with_keys_fair rules F). cbn [option_map]. f_equal.
    rewrite <- (tag_untag (rule V) key_of rules 0), sort_untag, map_map, <- map_rev. reflexivity.
  - intros k i r. rewrite <- in_rev. split.
    + intros H. apply (Permutation_in _ (sort_perm _ _)) in H. apply tag_In in H as (E & _ & N).
      rewrite Nat.sub_0_r in N. auto.
    + intros [E N]. apply (Permutation_in _ (Permutation_sym (sort_perm _ _))). apply tag_In.
      rewrite Nat.sub_0_r. split; [exact E |]. split; [lia | exact N].
  - apply sorted_rev, sort_sorted, tag_sorted.
Qed.

Lemma filter_map_comm : forall A B (f : A -> B) g l, filter g (map f l) = map f (filter (fun x => g (f x)) l).
Proof.
  intros A B f g l. induction l as [| x l IH]; [reflexivity |]. cbn [map filter].
  destruct (g (f x)); cbn [map]; rewrite IH; reflexivity.
Qed.

Definition decl_of (x : tagged (rule V) * list (pval V)) : decl V :=
  mkdecl (place (fst x)) (fst (fst x)) (imp (snd x)) (strip (snd x)).

Theorem cascade_right : forall es rules, listed es rules -> (forall r, In r rules -> fair_rule r) ->
  (forall key d, in_force space lower root p rules key d ->
    (forall d', in_force space lower root p rules key d' -> d' = d \/ outranks d d') -> d_imp d = true ->
    forall d', in_force space lower root p rules key d' -> d_imp d' = true -> d' = d) ->
  exists st sel res, style V es = Some st /\ select_element space lower V root p st = Some sel /\
    properties V sel = Some res /\
    forall key v, sget res key = Some v <->
      exists d, winner space lower root p rules key d /\ d_value d = v.
Proof.
  intros es rules L F I. destruct (style_order es rules L F) as (T & Est & HT & Hs).
  exists (map (fun t => snd (snd t)) T), (filter takes (map (fun t => snd (snd t)) T)).
  assert (forall r, In r (map (fun t => snd (snd t)) T) -> In r rules) as Hin.
  { intros r H. apply in_map_iff in H as ([k [i x]] & <- & H). apply HT in H as [_ H]. apply nth_error_In in H. exact H. }
  assert (forall r, In r (filter takes (map (fun t => snd (snd t)) T)) -> fair_rule r) as Hfair.
  { intros r H. apply filter_In in H as [H _]. apply F. apply Hin. exact H. }
  destruct (properties_get (filter takes (map (fun t => snd (snd t)) T))) as (res & Ep & Hres).
  { intros r k v H Hv. apply Hfair in H. destruct H as (_ & _ & _ & _ & H). eapply H; eassumption. }
  exists res. split; [exact Est |]. split; [apply select_filter; intros r H; apply F, Hin; exact H |].
  split; [exact Ep |]. intros key v. rewrite Hres. clear Hres Ep res.
  rewrite values_of_rules by (intros r H; apply Hfair in H; apply H).
  rewrite filter_map_comm. set (T' := filter (fun t => takes (snd (snd t))) T).
  set (ds := flat_map (fun t => match sget (r_props (snd (snd t))) key with Some v => [(t, v)] | None => [] end) T').
  assert (flat_map (fun r : rule V => match sget (r_props r) key with Some v => [v] | None => [] end)
            (map (fun t => snd (snd t)) T') = map snd ds) as ->.
  { unfold ds. induction T' as [| t T' IH]; [reflexivity |]. cbn [map flat_map]. rewrite IH, map_app. f_equal.
    destruct (sget (r_props (snd (snd t))) key); reflexivity. }
  (* the declarations in force *)
  assert (forall d, in_force space lower root p rules key d <-> exists x, In x ds /\ d = decl_of x) as Hd.
  { intros d. unfold in_force. split.
    - intros (r & w & En & Hc & Hp & Hm).
      assert (fair_rule r) as Fr by (apply F, (nth_error_In _ _ En)).
      apply css_spec_iff in Hc as [Tr Ek]; [| exact Fr].
      assert (w <> []) as Nw by (destruct Fr as (_ & _ & _ & _ & H); eapply H; eassumption).
      apply marked_iff in Hm as [E1 E2]; [| exact Nw].
      exists ((key_of r, (d_place d, r)), w). split.
      + unfold ds. apply in_flat_map. exists (key_of r, (d_place d, r)). split.
        * unfold T'. apply filter_In. split; [apply HT; auto | exact Tr].
        * cbn [snd]. rewrite (In_sget _ (r_props r) key w); [left; reflexivity | apply Fr | exact Hp].
      + unfold decl_of, place. cbn [fst snd]. destruct d as [dp dsp di dv]. cbn [d_place d_spec d_imp d_value] in *.
        subst. reflexivity.
    - intros ([[k [i r]] w] & Hx & ->). unfold ds in Hx. apply in_flat_map in Hx as ([k' [i' r']] & Ht & Hx).
      cbn [snd] in Hx. destruct (sget (r_props r') key) as [w' |] eqn:Eg; [| destruct Hx].
      destruct Hx as [Hx | []]. injection Hx as -> -> -> ->.
      unfold T' in Ht. apply filter_In in Ht as [Ht Tr]. cbn [snd] in Tr. apply HT in Ht as [-> En].
      assert (fair_rule r) as Fr by (apply F, (nth_error_In _ _ En)).
      exists r, w. unfold decl_of, place. cbn [fst snd d_place d_spec d_imp d_value]. split; [exact En |].
      split; [apply css_spec_iff; auto |]. apply sget_In in Eg. split; [exact Eg |].
      apply marked_iff; [| auto]. destruct Fr as (_ & _ & _ & _ & H). eapply H; eassumption. }
  (* their order *)
  assert (StronglySorted (fun a b => below (fst b) (fst a)) ds) as Sd.
  { assert (StronglySorted (fun a b => below b a) T') as S' by (apply sorted_filter; exact Hs).
    unfold ds. clear - S'. induction S' as [| t T' H IH Ft]; [constructor |]. cbn [flat_map].
    destruct (sget (r_props (snd (snd t))) key) as [w |]; [| exact IH]. cbn [app]. constructor; [exact IH |].
    rewrite Forall_forall in *. intros [t' w'] Hx. apply in_flat_map in Hx as (t2 & Ht2 & Hx).
    destruct (sget (r_props (snd (snd t2))) key); [| destruct Hx]. destruct Hx as [Hx | []].
    injection Hx as -> ->. cbn [fst]. auto. }
  assert (forall x y, below (fst y) (fst x) -> outranks (decl_of x) (decl_of y)) as Ho.
  { intros x y [H | [E H]]; unfold outranks, decl_of; cbn [d_spec d_place]; [left; exact H | right; auto]. }
  assert (forall d1 d2, winner space lower root p rules key d1 -> winner space lower root p rules key d2 -> d1 = d2) as Uw.
  { assert (forall d1 d2 : decl V, outranks d1 d2 -> outranks d2 d1 -> False) as As.
    { intros d1 d2 [H1 | [E1 L1]] [H2 | [E2 L2]].
      - apply (lex_irrefl (d_spec d1)). eapply lex_trans; eassumption.
      - rewrite E2 in H1. apply lex_irrefl in H1. exact H1.
      - rewrite E1 in H2. apply lex_irrefl in H2. exact H2.
      - lia. }
    intros d1 d2 [F1 W1] [F2 W2]. destruct (W1 d2 F2) as [-> | B1]; [reflexivity |].
    destruct (W2 d1 F1) as [-> | B2]; [reflexivity |]. exfalso.
    destruct B1 as [[A1 A2] | [A1 O1]], B2 as [[A3 A4] | [A3 O2]]; try congruence. eapply As; eassumption. }
  destruct ds as [| x0 ds0] eqn:Eds; cbn [map].
  { split; [discriminate |]. intros (d & [Fd _] & _). apply Hd in Fd as (x & [] & _). }
  inversion Sd as [| a b Sd0 Fd0]; subst a b. rewrite Forall_forall in Fd0.
  assert (forall y, In y ds0 -> outranks (decl_of x0) (decl_of y)) as O0 by (intros y Hy; apply Ho, Fd0; exact Hy).
  destruct (find imp (map snd ds0)) as [w |] eqn:Fi.
  - assert (exists a y b, ds0 = a ++ y :: b /\ snd y = w /\ imp w = true /\ forall z, In z a -> imp (snd z) = false)
      as (a & y & b & E & Ey & Ew & Ha).
    { clear - Fi. induction ds0 as [| z ds0 IH]; [discriminate |]. cbn [map find] in Fi.
      destruct (imp (snd z)) eqn:Ez.
      - injection Fi as <-. exists [], z, ds0. repeat split; auto. intros z' [].
      - destruct (IH Fi) as (a & y & b & -> & Ey & Ew & Ha). exists (z :: a), y, b. repeat split; auto.
        intros z' [<- | Hz']; auto. }
    subst w. assert (winner space lower root p rules key (decl_of y)) as W.
    { assert (In y (x0 :: ds0)) as Iy by (right; rewrite E; apply in_or_app; right; left; reflexivity).
      split; [apply Hd; exists y; auto |]. intros d' Fd'. apply Hd in Fd' as (z & Hz & ->).
      assert (d_imp (decl_of y) = true) as Imp by (exact Ew).
      destruct (imp (snd z)) eqn:Ez; [| right; left; split; [exact Ez | exact Imp]].
      destruct Hz as [<- | Hz].
      { left. symmetry. apply (I key (decl_of x0)).
        - apply Hd. exists x0. split; [left; reflexivity | reflexivity].
        - intros d' Fd'. apply Hd in Fd' as (z & [<- | Hz] & ->); [left; reflexivity | right; auto].
        - exact Ez.
        - apply Hd. exists y. auto.
        - exact Imp. }
      rewrite E in Hz. apply in_app_or in Hz as [Hz | [<- | Hz]].
      - rewrite (Ha z Hz) in Ez. discriminate.
      - left. reflexivity.
      - right. right. split; [unfold decl_of; cbn [d_imp]; exact (eq_trans Ew (eq_sym Ez)) |].
        rewrite E in Sd0. clear - Sd0 Hz Ho. apply Ho.
        induction a as [| c a IH]; cbn [app] in Sd0; inversion Sd0 as [| c' a' S' F']; subst.
        + rewrite Forall_forall in F'. apply F'. exact Hz.
        + apply IH. exact S'. }
    split.
    + intros Ev. injection Ev as <-. exists (decl_of y). split; [exact W |]. reflexivity.
    + intros (d & Wd & <-). rewrite (Uw d (decl_of y) Wd W). reflexivity.
  - assert (forall z, In z ds0 -> imp (snd z) = false) as Hn.
    { intros z Hz. apply (find_none _ _ Fi). apply in_map. exact Hz. }
    assert (winner space lower root p rules key (decl_of x0)) as W.
    { split; [apply Hd; exists x0; split; [left; reflexivity | reflexivity] |].
      intros d' Fd'. apply Hd in Fd' as (z & [<- | Hz] & ->); [left; reflexivity | right].
      destruct (imp (snd x0)) eqn:E0.
      - left. split; [unfold decl_of; cbn [d_imp]; apply Hn; exact Hz | exact E0].
      - right. split; [unfold decl_of; cbn [d_imp]; exact (eq_trans E0 (eq_sym (Hn z Hz))) | apply O0; exact Hz]. }
    split.
    + intros Ev. injection Ev as <-. exists (decl_of x0). split; [exact W | reflexivity].
    + intros (d & Wd & <-). rewrite (Uw d (decl_of x0) Wd W). reflexivity.
Qed.
End Element.
End Rules.
