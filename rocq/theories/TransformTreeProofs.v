(** Proofs about transforming a tree, with results of earlier times in the cache. *)
From Verif Require Import Base BaseFacts TargetModel LexerModel TreeModel TreeSpec TreeProofs TreeRangeProofs BuildModel TransformModel TransformSpec TransformTextProofs.
From Coq Require Import ZArith ZifyBool.

Section Proofs.
Variables L A R Lang Name Arg : Type.
Variable lang : L -> Lang.
Variable name : L -> Name.
Variable arg : L -> Arg.
Variable lang_is : Lang -> Lang -> bool.
Hypothesis lang_is_spec : forall a b, lang_is a b = true <-> a = b.
Variable get_transform : Lang -> transform L A R Name Arg.
Notation meth := (method_of lang name get_transform).
Notation itemsof := (items_of lang name arg get_transform).
Notation mean := (meaning lang name arg get_transform).
Notation right := (cache_right lang name arg get_transform).
Notation curok := (cur_ok L A R Lang Name Arg get_transform).
Notation inode := (node (nat * L) A).
Notation itemlist := (itemlist L A R Name Arg).
Notation method := (method L A R Name Arg).
Notation current := (current L A R Lang Name Arg).
Notation cache := (cache R).
Notation pscan := (p_scan L A R Lang Name Arg lang name lang_is get_transform).
Notation ploop := (p_loop L A R Lang Name Arg lang name arg lang_is get_transform).
Notation ttree := (transform_tree L A R Lang Name Arg lang name arg lang_is get_transform).

Definition iitems (add : bool) (cs : list inode) := concat (map (fun n => itemsof add (erase n)) cs).
Lemma iitems_app add a b : iitems add (a ++ b) = iitems add a ++ iitems add b.
Proof. unfold iitems. rewrite map_app, concat_app. reflexivity. Qed.

Lemma erase_ctx id l cs : erase (Ctx (id, l) cs : inode) = Ctx l (map erase cs).
Proof. reflexivity. Qed.
Lemma mean_ctx id l cs m : meth l = Some m -> mean (erase (Ctx (id, l) cs)) = Some (m_call m (ItemList (arg l) (iitems (m_untransformed m) cs))).
Proof. intros H. rewrite erase_ctx. cbn [meaning]. rewrite H. cbn [option_map]. unfold iitems. rewrite map_map. reflexivity. Qed.
Lemma items_ctx id l cs m add : meth l = Some m ->
  itemsof add (erase (Ctx (id, l) cs)) = [IObj (name l) (m_call m (ItemList (arg l) (iitems (m_untransformed m) cs)))].
Proof. intros H. rewrite erase_ctx. cbn [items_of]. rewrite H. unfold iitems. rewrite map_map. reflexivity. Qed.

(** The contexts among [cs] that have a method are in the cache. *)
Definition cached (ca : cache) (cs : list inode) : Prop :=
  forall id l ccs, In (Ctx (id, l) ccs) cs -> meth l <> None -> ca id <> None.
(** The same, for the children of every context that is in the cache itself. *)
Definition closed (ca : cache) (tree : inode) : Prop :=
  forall p id l cs, p <> [] -> node_at tree p = Some (Ctx (id, l) cs) -> ca id <> None -> cached ca cs.

Definition right_in (ca : cache) (cs : list inode) : Prop :=
  forall id l ccs v, In (Ctx (id, l) ccs) cs -> ca id = Some v -> mean (erase (Ctx (id, l) ccs)) = Some v.

Lemma scan_ok ca add cs : forall i items cur, right_in ca cs -> curok cur ->
  match pscan ca add i cs items cur with
  | (items', cur', None) => curok cur' /\ items' = il_add items (iitems add cs) /\ cached ca cs
  | (items', cur', Some (j, m)) => curok cur' /\ exists a b id l ccs, cs = a ++ Ctx (id, l) ccs :: b /\ j = i + length a
      /\ items' = il_add items (iitems add a) /\ cached ca a /\ meth l = Some m /\ ca id = None
  end.
Proof.
  induction cs as [|c cs IH]; intros i items cur Hr Hc; cbn [p_scan].
  - split; [exact Hc|]. unfold iitems. cbn. rewrite il_add_nil. split; [reflexivity|]. intros id l ccs [].
  - assert (Hr' : right_in ca cs) by (intros id l ccs v Hin; apply Hr; right; exact Hin).
    assert (W : forall cur1 more, curok cur1 -> itemsof add (erase c) = more -> cached ca [c] ->
      match pscan ca add (S i) cs (il_add items more) cur1 with
      | (items', cur', None) => curok cur' /\ items' = il_add items (iitems add (c :: cs)) /\ cached ca (c :: cs)
      | (items', cur', Some (j, m)) => curok cur' /\ exists a b id l ccs, c :: cs = a ++ Ctx (id, l) ccs :: b /\ j = i + length a
          /\ items' = il_add items (iitems add a) /\ cached ca a /\ meth l = Some m /\ ca id = None
      end).
    { intros cur1 more Hc1 Hm Hca. specialize (IH (S i) (il_add items more) cur1 Hr' Hc1).
      destruct (pscan ca add (S i) cs (il_add items more) cur1) as [[items' cur'] [[j m]|]].
      - destruct IH as (I1 & a & b & id & l & ccs & I2 & I3 & I4 & I5 & I6 & I7). split; [exact I1|]. exists (c :: a), b, id, l, ccs.
        split; [rewrite I2; reflexivity|]. split; [cbn; lia|]. split; [rewrite I4, il_add_add, <- Hm; reflexivity|].
        split; [|auto]. intros id' l' ccs' [H|H]; [apply (Hca id' l' ccs'); left; exact H|exact (I5 _ _ _ H)].
      - destruct IH as (I1 & I2 & I3). split; [exact I1|]. split; [rewrite I2, il_add_add, <- Hm; reflexivity|].
        intros id' l' ccs' [H|H]; [apply (Hca id' l' ccs'); left; exact H|exact (I3 _ _ _ H)]. }
    destruct c as [t|[id l] ccs].
    + apply W; [exact Hc|reflexivity|]. intros id l ccs [H|[]]. discriminate.
    + destruct (switch_ok _ _ _ _ _ _ lang name lang_is lang_is_spec get_transform cur l Hc) as (S1 & S2). cbn zeta in S1, S2. rewrite S2.
      destruct (meth l) as [m|] eqn:Em.
      * destruct (ca id) as [obj|] eqn:Eid.
        -- apply W; [exact S1| |intros id' l' ccs' [H|[]] _; injection H as <- <- <-; congruence].
           pose proof (Hr id l ccs obj (or_introl eq_refl) Eid) as H. rewrite (mean_ctx _ _ _ _ Em) in H. injection H as H.
           rewrite (items_ctx _ _ _ _ _ Em), H. reflexivity.
        -- split; [exact S1|]. exists [], cs, id, l, ccs. split; [reflexivity|]. split; [cbn; lia|]. unfold iitems. cbn [map concat]. rewrite il_add_nil.
           split; [reflexivity|]. split; [intros id' l' ccs' []|]. auto.
      * assert (Hca : cached ca [Ctx (id, l) ccs]) by (intros id' l' ccs' [H|[]] Hm; injection H as <- <- <-; congruence).
        destruct add.
        -- apply W; [exact S1| |exact Hca]. rewrite erase_ctx. cbn [items_of]. rewrite Em. reflexivity.
        -- specialize (W (cur_switch _ _ _ _ _ _ lang lang_is get_transform cur l) []). rewrite il_add_nil in W. apply W; [exact S1| |exact Hca].
           rewrite erase_ctx. cbn [items_of]. rewrite Em. reflexivity.
Qed.

(** ** The loop *)

Section Loop.
Variable tree : inode.
Hypothesis Hd : distinct tree.

Fixpoint wsz (n : inode) : nat :=
  match n with Tok _ => 1 | Ctx _ cs => S (S ((fix go cs := match cs with [] => 0 | c :: cs => wsz c + go cs end) cs)) end.
Definition wsum (cs : list inode) : nat := list_sum (map wsz cs).
Lemma wsz_ctx l cs : wsz (Ctx l cs) = S (S (wsum cs)).
Proof. cbn [wsz]. do 2 f_equal. unfold wsum. induction cs as [|c cs IH]; [reflexivity|]. cbn. rewrite IH. reflexivity. Qed.
Lemma wsum_app a b : wsum (a ++ b) = wsum a + wsum b.
Proof. unfold wsum. rewrite map_app, list_sum_app. reflexivity. Qed.
Lemma wsz_size n : wsz n <= 2 * size n.
Proof.
  induction n as [t|l cs IH] using node_ind'; [cbn; lia|]. rewrite wsz_ctx. unfold wsum.
  assert (G : list_sum (map wsz cs) <= 2 * (fix go cs := match cs with [] => 0 | c :: cs' => size c + go cs' end) cs).
  { induction IH as [|c cs Hc _ IHc]; [cbn; lia|]. cbn -[wsz size Nat.mul]. change (list_sum (map wsz cs)) with (fold_right Nat.add 0 (map wsz cs)) in IHc. lia. }
  cbn [size]. lia.
Qed.

Inductive frames (ca : cache) : list nat -> bool -> list (itemlist * nat * method * bool) -> nat -> Prop :=
| f_root add : frames ca [] add [] 0
| f_frame i rp old m add add' st n id' l' cs' id l cs m' :
    node_at tree (rev rp) = Some (Ctx (id', l') cs') -> nth_error cs' i = Some (Ctx (id, l) cs) ->
    meth l' = Some m' -> add' = m_untransformed m' -> meth l = Some m -> add = m_untransformed m ->
    old = ItemList (arg l') (iitems add' (firstn i cs')) -> cached ca (firstn i cs') ->
    frames ca rp add' st n ->
    frames ca (i :: rp) add ((old, i + 1, m, add') :: st) (S (n + wsum (skipn (S i) cs'))).

Definition ca_le (ca ca' : cache) : Prop := forall id, ca id <> None -> ca' id <> None.
Lemma cached_le ca ca' cs : ca_le ca ca' -> cached ca cs -> cached ca' cs.
Proof. intros H Hc id l ccs Hin Hm. apply H. exact (Hc _ _ _ Hin Hm). Qed.
Lemma frames_le ca ca' rp add st n : ca_le ca ca' -> frames ca rp add st n -> frames ca' rp add st n.
Proof. intros H Hf. induction Hf; econstructor; eauto using cached_le. Qed.

(** The cache has grown with contexts of the tree only. *)
Definition grown (ca ca' : cache) : Prop :=
  (forall id v, ca id = Some v -> ca' id = Some v)
  /\ forall id, ca' id <> None -> ca id <> None \/ exists p l cs, node_at tree p = Some (Ctx (id, l) cs).

Definition good_cache (ca : cache) : Prop := right ca tree /\ closed ca tree.

Record pinv (s : pstate L A R Lang Name Arg) (n : nat) : Prop := PInv {
  pi_ex : exists id l cs m k, node_at tree (p_path _ _ _ _ _ _ s) = Some (Ctx (id, l) cs) /\ meth l = Some m
    /\ p_add _ _ _ _ _ _ s = m_untransformed m
    /\ p_items _ _ _ _ _ _ s = ItemList (arg l) (iitems (p_add _ _ _ _ _ _ s) (firstn (p_i _ _ _ _ _ _ s) cs))
    /\ cached (p_cache _ _ _ _ _ _ s) (firstn (p_i _ _ _ _ _ _ s) cs)
    /\ p_i _ _ _ _ _ _ s <= length cs
    /\ frames (p_cache _ _ _ _ _ _ s) (rev (p_path _ _ _ _ _ _ s)) (p_add _ _ _ _ _ _ s) (p_stack _ _ _ _ _ _ s) k
    /\ n = wsum (skipn (p_i _ _ _ _ _ _ s) cs) + k;
  pi_cur : curok (p_cur _ _ _ _ _ _ s);
  pi_good : good_cache (p_cache _ _ _ _ _ _ s) }.

Lemma right_children ca p id l cs : right ca tree -> node_at tree p = Some (Ctx (id, l) cs) -> right_in ca cs.
Proof.
  intros Hr Hat id' l' ccs v Hin Hv. apply In_nth_error in Hin as (i & Hi). apply (Hr (p ++ [i]) id' l' ccs v); [destruct p; discriminate| |exact Hv].
  rewrite (node_at_last _ _ _ _ _ _ Hat). exact Hi.
Qed.

Lemma firstn_skipn_in {T} (l : list T) i x : In x (skipn i l) -> In x l.
Proof. intros H. rewrite <- (firstn_skipn i l). apply in_or_app. right. exact H. Qed.

Lemma set_good ca p id l cs m : good_cache ca -> p <> [] -> node_at tree p = Some (Ctx (id, l) cs) -> meth l = Some m -> cached ca cs ->
  let ca' := cache_set ca id (m_call m (ItemList (arg l) (iitems (m_untransformed m) cs))) in good_cache ca' /\ ca_le ca ca'.
Proof.
  intros [Hr Hcl] Hp Hat Hm Hca ca'. assert (Hle : ca_le ca ca').
  { intros id' H. unfold ca', cache_set. destruct (id' =? id); [discriminate|exact H]. }
  split; [|exact Hle]. split.
  - intros q id' l' cs' v Hq Hat' Hv. unfold ca', cache_set in Hv. destruct (id' =? id) eqn:E; [|exact (Hr q id' l' cs' v Hq Hat' Hv)].
    assert (id' = id) by lia. subst id'. pose proof (Hd _ _ _ _ _ _ _ Hat Hat') as <-. rewrite Hat in Hat'. injection Hat' as <- <-. injection Hv as <-.
    apply mean_ctx. exact Hm.
  - intros q id' l' cs' Hq Hat' Hv. unfold ca', cache_set in Hv. destruct (id' =? id) eqn:E.
    + assert (id' = id) by lia. subst id'. pose proof (Hd _ _ _ _ _ _ _ Hat Hat') as <-. rewrite Hat in Hat'. injection Hat' as <- <-. exact (cached_le _ _ _ Hle Hca).
    + exact (cached_le _ _ _ Hle (Hcl _ _ _ _ Hq Hat' Hv)).
Qed.

Lemma loop_ok root_l root_id root_cs root_m intr : tree = Ctx (root_id, root_l) root_cs -> meth root_l = Some root_m ->
  forall fuel s n j, pinv s n -> n < fuel ->
  exists o ca', ploop fuel tree root_m intr j s = Some (o, ca') /\ good_cache ca' /\ ca_le (p_cache _ _ _ _ _ _ s) ca'
    /\ (forall id, ca' id <> None -> p_cache _ _ _ _ _ _ s id <> None \/ exists p l cs, p <> [] /\ node_at tree p = Some (Ctx (id, l) cs))
    /\ match o with
       | Value v => v = mean (erase tree) /\ cached ca' root_cs
       | Interrupted => intr <> None
       end.
Proof.
  intros Ht Hrm. induction fuel as [|fuel IH]; intros s n j [(id & l & cs & m & k & H1 & H2 & H3 & H4 & H5 & H6 & H7 & H8) Hcur Hgood] Hn; [lia|].
  cbn [p_loop]. destruct (interrupted intr j) eqn:Ei.
  { exists Interrupted, (p_cache _ _ _ _ _ _ s). split; [reflexivity|]. split; [exact Hgood|]. split; [intros ? H; exact H|]. split; [auto|]. intros ->. discriminate. }
  destruct s as [path items i stack add cur ca]. cbn [p_path p_items p_i p_stack p_add p_cur p_cache] in *. rewrite H1.
  pose proof (right_children ca path id l cs (proj1 Hgood) H1) as Hrin.
  assert (Hrin' : right_in ca (skipn i cs)) by (intros id' l' ccs v Hin; apply Hrin; eapply firstn_skipn_in; exact Hin).
  pose proof (scan_ok ca add (skipn i cs) i items cur Hrin' Hcur) as Hs.
  destruct (pscan ca add i (skipn i cs) items cur) as [[items' cur'] [[j' m']|]].
  - (* into a child *)
    destruct Hs as (S1 & a & b & id' & l' & ccs & S2 & S3 & S4 & S5 & S6 & S7).
    assert (Ecs : cs = (firstn i cs ++ a) ++ Ctx (id', l') ccs :: b) by (rewrite <- app_assoc, <- S2, firstn_skipn; reflexivity).
    assert (Elen : length (firstn i cs ++ a) = j') by (rewrite app_length, firstn_length; lia).
    assert (Hnth : nth_error cs j' = Some (Ctx (id', l') ccs)).
    { rewrite Ecs, <- Elen, nth_error_app2, Nat.sub_diag by lia. reflexivity. }
    assert (Hfirst : firstn j' cs = firstn i cs ++ a).
    { rewrite Ecs at 1. rewrite <- Elen, firstn_app, firstn_all, Nat.sub_diag. cbn [firstn]. apply app_nil_r. }
    assert (Hskip : skipn (S j') cs = b).
    { rewrite Ecs. rewrite <- Elen, skipn_app. rewrite skipn_all2 by lia. replace (S (length (firstn i cs ++ a)) - length (firstn i cs ++ a)) with 1 by lia. reflexivity. }
    rewrite Hnth.
    match goal with |- context [ploop fuel tree root_m intr (S j) ?x] => set (s2 := x) end.
    assert (Hc' : cached ca (firstn j' cs)).
    { rewrite Hfirst. intros id0 l0 ccs0 Hin. apply in_app_or in Hin as [Hin|Hin]; [exact (H5 _ _ _ Hin)|exact (S5 _ _ _ Hin)]. }
    assert (Hinv : pinv s2 (wsum ccs + S (k + wsum b))).
    { constructor; cbn [s2 p_path p_items p_i p_stack p_add p_cur p_cache]; [|exact S1|exact Hgood].
      exists id', l', ccs, m', (S (k + wsum b)). cbn [firstn skipn].
      split; [rewrite (node_at_last _ _ _ _ _ _ H1); exact Hnth|]. split; [exact S6|]. split; [reflexivity|]. split; [reflexivity|].
      split; [intros ? ? ? []|]. split; [lia|]. split; [|reflexivity]. rewrite rev_app_distr. cbn [rev app]. rewrite <- Hskip.
      eapply f_frame; [rewrite rev_involutive; exact H1|exact Hnth|exact H2|exact H3|exact S6|reflexivity| |exact Hc'|exact H7].
      rewrite S4, H4, Hfirst, iitems_app. reflexivity. }
    assert (Hn2 : wsum ccs + S (k + wsum b) < fuel).
    { subst n. rewrite S2, wsum_app in Hn. unfold wsum at 2 in Hn. cbn [map list_sum fold_right] in Hn. rewrite wsz_ctx in Hn. fold (list_sum (map wsz b)) in Hn. fold (wsum b) in Hn. lia. }
    destruct (IH s2 _ (S j) Hinv Hn2) as (o & ca' & I1 & I2 & I3 & I4 & I5). exists o, ca'. auto.
  - destruct Hs as (S1 & S2 & S3).
    assert (Hitems : items' = ItemList (arg l) (iitems add cs)).
    { rewrite S2, H4. unfold il_add. cbn [il_arg il_items]. rewrite <- iitems_app, firstn_skipn. reflexivity. }
    assert (Hall : cached ca cs).
    { intros id0 l0 ccs0 Hin. rewrite <- (firstn_skipn i cs) in Hin. apply in_app_or in Hin as [Hin|Hin]; [exact (H5 _ _ _ Hin)|exact (S3 _ _ _ Hin)]. }
    clear Hrin Hrin' Hcur S2. remember (rev path) as rpath eqn:Erp. destruct H7 as [add0|i0 rp old m0 add0 add' st k0 id' l' cs' id0 l0 cs0 m' F1 F2 F3 F4 F5 F6 F7 F8 F9].
    + (* the root *)
      assert (path = []) by (rewrite <- (rev_involutive path), <- Erp; reflexivity). subst path items' add0. cbn [node_at] in H1. rewrite Ht in H1. injection H1 as <- <- <-.
      exists (Value (Some (m_call root_m (ItemList (arg root_l) (iitems (m_untransformed m) root_cs))))), ca.
      assert (m = root_m) by congruence. subst m. split; [reflexivity|]. split; [exact Hgood|]. split; [intros ? H; exact H|]. split; [auto|].
      split; [|exact Hall]. rewrite Ht. symmetry. apply mean_ctx. exact Hrm.
    + (* back to the parent *)
      assert (Epath : path = rev rp ++ [i0]) by (rewrite <- (rev_involutive path), <- Erp; reflexivity). subst path items' add0 add' old n.
      rewrite removelast_app by discriminate. cbn [removelast]. rewrite app_nil_r.
      rewrite (node_at_last _ _ _ _ _ _ F1) in H1. cbn [children] in H1. rewrite F2 in H1. injection H1 as -> -> ->.
      assert (m0 = m) by congruence. subst m0.
      assert (Hat : node_at tree (rev rp ++ [i0]) = Some (Ctx (id, l) cs)) by (rewrite (node_at_last _ _ _ _ _ _ F1); exact F2).
      destruct (set_good ca (rev rp ++ [i0]) id l cs m Hgood ltac:(destruct (rev rp); discriminate) Hat H2 Hall) as (G1 & G2).
      match goal with |- context [ploop fuel tree root_m intr (S j) ?x] => set (s2 := x) end.
      assert (Hlen : i0 < length cs') by (apply nth_error_Some; congruence).
      assert (Hsplit : firstn (i0 + 1) cs' = firstn i0 cs' ++ [Ctx (id, l) cs]).
      { clear - F2. revert cs' F2. induction i0 as [|i0 IHi]; intros [|c cs'] F2; try discriminate; cbn in *; [injection F2 as ->; destruct cs'; reflexivity|]. f_equal. apply IHi. exact F2. }
      assert (Hinv : pinv s2 (wsum (skipn (i0 + 1) cs') + k0)).
      { constructor; cbn [s2 p_path p_items p_i p_stack p_add p_cur p_cache]; [|exact S1|exact G1].
        exists id', l', cs', m', k0. split; [exact F1|]. split; [exact F3|]. split; [reflexivity|]. split.
        - unfold il_add. cbn [il_arg il_items]. f_equal. rewrite Hsplit, iitems_app. f_equal. unfold iitems at 2. cbn [map concat]. rewrite (items_ctx _ _ _ _ _ H2), app_nil_r. reflexivity.
        - split; [|split; [lia|split; [rewrite rev_involutive; exact (frames_le _ _ _ _ _ _ G2 F9)|reflexivity]]].
          rewrite Hsplit. intros id0 l0 ccs0 Hin Hm. apply in_app_or in Hin as [Hin|[Hin|[]]]; [exact (G2 _ (F8 _ _ _ Hin Hm))|]. injection Hin as <- <- <-.
          unfold cache_set. rewrite Nat.eqb_refl. discriminate. }
      assert (Hn2 : wsum (skipn (i0 + 1) cs') + k0 < fuel) by (replace (i0 + 1) with (S i0) by lia; lia).
      destruct (IH s2 _ (S j) Hinv Hn2) as (o & ca' & I1 & I2 & I3 & I4 & I5). exists o, ca'. split; [exact I1|]. split; [exact I2|].
      split; [intros x Hx; apply I3, G2, Hx|]. split; [|exact I5]. intros x Hx. destruct (I4 x Hx) as [Hy|Hy]; [|right; exact Hy].
      cbn [s2 p_cache] in Hy. unfold cache_set in Hy. destruct (x =? id) eqn:Ex; [|left; exact Hy]. right. exists (rev rp ++ [i0]), l, cs.
      split; [destruct (rev rp); discriminate|]. assert (x = id) by lia. subst x. exact Hat.
Qed.

Lemma tree_ok ca intr id l cs : tree = Ctx (id, l) cs -> good_cache ca ->
  exists o ca', ttree ca tree intr = Some (o, ca') /\ good_cache ca' /\ ca_le ca ca'
    /\ (forall id, ca' id <> None -> ca id <> None \/ exists p l cs, p <> [] /\ node_at tree p = Some (Ctx (id, l) cs))
    /\ match o with
       | Value v => v = mean (erase tree) /\ (meth l <> None -> cached ca' cs)
       | Interrupted => intr <> None
       end.
Proof.
  intros Ht Hg.
  assert (Et : ttree ca tree intr = match meth l with
     | None => Some (Value None, ca)
     | Some m => ploop (p_fuel L A tree) tree m intr 0 (PState L A R Lang Name Arg [] (ItemList (arg l) []) 0 [] (m_untransformed m) (cur_init L A R Lang Name Arg lang get_transform l) ca)
     end) by (rewrite Ht; reflexivity).
  rewrite Et. clear Et.
  destruct (meth l) as [m|] eqn:Em.
  - match goal with |- context [ploop (p_fuel _ _ tree) tree m intr 0 ?x] => set (s := x) end.
    assert (Hinv : pinv s (wsum cs)).
    { constructor; [|reflexivity|exact Hg]. exists id, l, cs, m, 0. cbn [s p_path p_items p_i p_stack p_add p_cur p_cache firstn skipn]. rewrite Ht.
      split; [reflexivity|]. split; [exact Em|]. split; [reflexivity|]. split; [reflexivity|]. split; [intros ? ? ? []|]. split; [lia|]. split; [constructor|lia]. }
    assert (Hn : wsum cs < p_fuel _ _ tree).
    { unfold p_fuel. pose proof (wsz_size tree) as Hw. rewrite Ht, wsz_ctx in Hw. rewrite Ht. lia. }
    destruct (loop_ok l id cs m intr Ht Em _ s _ 0 Hinv Hn) as (o & ca' & I1 & I2 & I3 & I4 & I5). exists o, ca'.
    split; [exact I1|]. split; [exact I2|]. split; [exact I3|]. split; [exact I4|]. destruct o; [|exact I5]. split; [apply I5|intros _; apply I5].
  - exists (Value None), ca. split; [reflexivity|]. split; [exact Hg|]. split; [intros ? H; exact H|]. split; [auto|]. split; [|congruence].
    rewrite Ht, erase_ctx. cbn [meaning]. rewrite Em. reflexivity.
Qed.
End Loop.

End Proofs.
