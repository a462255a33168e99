(** Proofs about finding contexts and about ranges of tokens. *)
From Verif Require Import Base BaseFacts TargetModel LexerModel LexerSpec TreeModel TreeSpec
  TreeProofs TreeWalkProofs.
From Coq Require Import ZArith ZifyBool.

Section Proofs.
Variables L A : Type.
Notation node := (node L A).
Notation tok := (tok A).
Implicit Types (n c : node) (cs ns : list node) (t : tok) (ts : list tok).

(** ** find_context *)

Definition ncovers pos n : Prop := n_pos n <= pos < n_end n.

Lemma n_end_last c : full c -> exists t ts', flatten c = ts' ++ [t] /\ n_end c = k_end t.
Proof.
  intros H. unfold n_end. rewrite last_token_spec by assumption.
  destruct (last_opt (flatten c)) as [t|] eqn:E.
  - apply last_opt_some in E as (ts' & E). eauto.
  - apply last_opt_none in E. apply full_flatten in H. congruence.
Qed.

Lemma n_pos_first c : full c -> exists t ts', flatten c = t :: ts' /\ n_pos c = k_pos t.
Proof.
  intros H. unfold n_pos. rewrite first_token_spec by assumption.
  destruct (flatten c) as [|t ts] eqn:E; [|simpl; eauto]. apply full_flatten in H. congruence.
Qed.

Lemma wf_end_le cs i j c d : wf_children cs -> i < j -> nth_error cs i = Some c -> nth_error cs j = Some d ->
  n_end c <= n_pos d.
Proof.
  intros Hwf Hij Hi Hj.
  destruct (wf_child _ _ _ _ _ Hwf Hi) as [Fc _]. destruct (wf_child _ _ _ _ _ Hwf Hj) as [Fd _].
  destruct Hwf as [HF HO]. destruct (nth_split2 _ _ _ _ _ _ _ Hij Hi Hj) as (u & v & w & E).
  rewrite E, flat_app, flat_cons, flat_app, flat_cons in HO.
  apply in_order_app in HO as (_ & HO & _). apply in_order_app in HO as (_ & _ & HO).
  destruct (n_end_last _ Fc) as (x & xs & Ex & ->). destruct (n_pos_first _ Fd) as (y & ys & Ey & ->).
  apply HO.
  - rewrite Ex. apply in_or_app; right; left; reflexivity.
  - apply in_or_app; right. rewrite Ey. left; reflexivity.
Qed.

Lemma c_find_children pos cs : wf_children cs ->
  (c_find pos cs = Some (-1)%Z /\ forall j c, nth_error cs j = Some c -> n_end c <= pos) \/
  exists i c, c_find pos cs = Some (Z.of_nat i) /\ nth_error cs i = Some c /\ pos < n_end c /\
    forall j d, nth_error cs j = Some d -> j <> i -> ~ ncovers pos d.
Proof.
  intros Hwf. pose proof Hwf as [HF HO]. unfold c_find.
  destruct (search_last _ _ (fun t => k_end t <=? pos) (fun n => Some (n_end n <=? pos)) cs HF
             (falling_end _ _ pos HO)) as (r & Hr & Hle & Hbefore & Hat).
  { intros c t _ Et. unfold n_end. rewrite Et. reflexivity. }
  rewrite Hr.
  assert (Hsmall : forall j d, nth_error cs j = Some d -> j < r -> n_end d <= pos).
  { intros j d Hj Hjr. destruct (wf_child _ _ _ _ _ Hwf Hj) as [Fd _].
    destruct (n_end_last _ Fd) as (x & xs & Ex & ->). apply Nat.leb_le. apply Hbefore.
    assert (Hin : In d (firstn r cs)).
    { apply nth_error_In with (n := j).
      assert (Hj2 : nth_error (firstn r cs ++ skipn r cs) j = Some d) by (rewrite firstn_skipn; exact Hj).
      rewrite nth_error_app1 in Hj2; [exact Hj2|]. rewrite firstn_length. lia. }
    unfold flat. apply in_concat. exists (flatten d). split; [apply in_map, Hin|].
    rewrite Ex. apply in_or_app; right; left; reflexivity. }
  destruct (r =? length cs) eqn:E.
  - left. split; [reflexivity|]. intros j c Hj. apply (Hsmall j c Hj).
    assert (j < length cs) by (apply nth_error_Some; congruence). lia.
  - right. destruct (nth_error cs r) as [c|] eqn:Ec; [|apply nth_error_None in Ec; lia].
    exists r, c. split; [reflexivity|]. split; [exact Ec|].
    destruct (Hat c eq_refl) as (tl & Hl & Hp). destruct (wf_child _ _ _ _ _ Hwf Ec) as [Fc _].
    destruct (n_end_last _ Fc) as (x & xs & Ex & Hx). rewrite Ex, last_opt_app in Hl. injection Hl as <-.
    assert (Hend : pos < n_end c) by lia. split; [exact Hend|].
    intros j d Hj Hne Hcov. unfold ncovers in Hcov.
    destruct (lt_eq_lt_dec j r) as [[Hlt|Heq]|Hgt]; [|congruence|].
    + pose proof (Hsmall j d Hj Hlt). lia.
    + pose proof (wf_end_le _ _ _ _ _ Hwf Hgt Ec Hj). lia.
Qed.

Lemma node_at_app n p q : node_at n (p ++ q) = match node_at n p with Some m => node_at m q | None => None end.
Proof.
  revert n; induction p as [|i p IH]; intros n; [reflexivity|]. simpl.
  destruct (nth_error (children n) i); [apply IH|reflexivity].
Qed.

Lemma node_at_last n p i m : node_at n p = Some m -> node_at n (p ++ [i]) = nth_error (children m) i.
Proof. intros H. rewrite node_at_app, H. simpl. destruct (nth_error (children m) i); reflexivity. Qed.

(** The contexts on a trail below the start node all cover the position. *)
Definition trail_covers n pos (q : list nat) : Prop :=
  forall k m, 0 < k <= length q -> node_at n (firstn k q) = Some m -> ncovers pos m.

Lemma find_context_loop_spec root pos : wf_node _ _ root -> forall fuel node trail i c,
  size node <= fuel -> node_at root trail = Some node -> wf_node _ _ node ->
  trail_covers root pos trail ->
  c_find pos (children node) = Some (Z.of_nat i) -> nth_error (children node) i = Some c -> pos < n_end c ->
  (forall j d, nth_error (children node) j = Some d -> j <> i -> ~ ncovers pos d) ->
  exists q m, find_context_loop fuel pos trail (Z.of_nat i) node = Some q /\ node_at root q = Some m /\
    trail_covers root pos q /\ (forall d, In d (children m) -> ncovers pos d -> exists t, d = Tok t) /\
    children m <> [].
Proof.
  intros Hroot. induction fuel as [|fuel IH]; intros node trail i c Hsz Hat Hwf Hcov Hf Hi Hend Hno.
  { pose proof (size_pos _ _ node). lia. }
  cbn [find_context_loop]. rewrite py_nth_nat, Hi.
  assert (Hne : children node <> []) by (destruct (children node); [destruct i; discriminate|discriminate]).
  destruct c as [t|l cs].
  - exists trail, node. split; [reflexivity|]. split; [assumption|]. split; [assumption|]. split; [|assumption].
    intros d Hd Hcd. apply In_nth_error in Hd as [j Hj].
    destruct (Nat.eq_dec j i) as [->|Hji]; [|exfalso; apply (Hno j d); assumption].
    rewrite Hi in Hj. injection Hj as <-. eauto.
  - destruct (n_pos (Ctx l cs) <=? pos) eqn:Ep.
    + pose proof (wf_node_child _ _ _ _ _ Hwf Hi) as Hc. unfold wf_node in Hc. simpl in Hc.
      destruct (wf_child _ _ _ _ _ Hwf Hi) as [Fc Oc].
      destruct (c_find_children pos cs Hc) as [[_ Hall]|(j & d & Hj & Hd & Hde & Hno')].
      { exfalso. destruct (last_opt cs) as [d|] eqn:El.
        - pose proof El as El'. apply last_opt_some in El as (cs' & ->).
          assert (n_end d <= pos).
          { apply (Hall (length cs') d). rewrite nth_error_app2, Nat.sub_diag by lia. reflexivity. }
          unfold n_end in *. rewrite last_token_ctx, El' in Hend. lia.
        - apply last_opt_none in El. subst cs. apply full_children in Fc as [Fc _]. congruence. }
      rewrite Hj. rewrite Zle_imp_le_bool by lia. rewrite Nat2Z.id.
      apply (IH (Ctx l cs) (trail ++ [i]) j d); try assumption.
      * apply size_nth in Hi. destruct node as [|ln csn]; [simpl in Hne; congruence|].
        rewrite size_ctx in Hsz. simpl children in Hi. lia.
      * rewrite (node_at_last _ _ _ _ Hat). exact Hi.
      * intros k m Hk Hm. rewrite app_length in Hk. simpl in Hk.
        destruct (Nat.eq_dec k (length trail + 1)) as [->|].
        -- rewrite firstn_all2 in Hm by (rewrite app_length; simpl; lia).
           rewrite (node_at_last _ _ _ _ Hat), Hi in Hm. injection Hm as <-. unfold ncovers. lia.
        -- apply (Hcov k m); [lia|]. rewrite <- Hm. rewrite firstn_app.
           replace (k - length trail) with 0 by lia. simpl. rewrite app_nil_r. reflexivity.
    + exists trail, node. split; [reflexivity|]. split; [assumption|]. split; [assumption|]. split; [|assumption].
      intros d Hd Hcd. apply In_nth_error in Hd as [j Hj].
      destruct (Nat.eq_dec j i) as [->|Hji]; [|exfalso; apply (Hno j d); assumption].
      rewrite Hi in Hj. injection Hj as <-. unfold ncovers in Hcd. lia.
Qed.

Lemma find_context_ok l cs pos : wf_children cs ->
  exists q m, find_context (Ctx l cs) pos = Some q /\ node_at (Ctx l cs) q = Some m /\
    (exists l' cs', m = Ctx l' cs') /\
    trail_covers (Ctx l cs) pos q /\ (forall d, In d (children m) -> ncovers pos d -> exists t, d = Tok t).
Proof.
  intros Hwf. unfold find_context. simpl children.
  destruct (c_find_children pos cs Hwf) as [[-> Hall]|(i & c & Hf & Hi & Hend & Hno)].
  - exists [], (Ctx l cs). split; [reflexivity|]. split; [reflexivity|]. split; [eauto|]. split.
    + intros k m Hk. simpl in Hk. lia.
    + simpl. intros d Hd Hc. apply In_nth_error in Hd as [j Hj]. specialize (Hall _ _ Hj). unfold ncovers in Hc. lia.
  - rewrite Hf. destruct (Z.of_nat i =? -1)%Z eqn:E; [lia|].
    destruct (find_context_loop_spec (Ctx l cs) pos Hwf (size (Ctx l cs)) (Ctx l cs) [] i c)
      as (q & m & H1 & H2 & H3 & H4 & H5); try assumption; try reflexivity.
    + intros k m Hk. simpl in Hk. lia.
    + exists q, m. split; [assumption|]. split; [assumption|]. split; [|split; assumption]. destruct m as [t|l' cs']; [simpl in H5; congruence|eauto].
Qed.

Lemma covers_ncovers pos c : full c -> (covers pos c <-> ncovers pos c).
Proof.
  intros H. unfold covers, ncovers. destruct (n_end_last _ H) as (u & us & Eu & ->).
  destruct (n_pos_first _ H) as (t & ts & Et & ->). unfold k_end. split.
  - intros (t' & u' & E1 & E2 & E3). rewrite Et in E1. injection E1 as <-.
    rewrite Eu, last_opt_app in E2. injection E2 as <-. exact E3.
  - intros E. exists t, u. rewrite Et at 1. rewrite Eu, last_opt_app. auto.
Qed.

Lemma node_at_full n p m : wf_node _ _ n -> p <> [] -> node_at n p = Some m -> full m.
Proof.
  revert n; induction p as [|i p IH]; intros n Hwf Hp Hm; [congruence|]. simpl in Hm.
  destruct (nth_error (children n) i) as [c|] eqn:E; [|discriminate].
  destruct p as [|j p].
  - injection Hm as <-. exact (proj1 (wf_child _ _ _ _ _ Hwf E)).
  - apply (IH c); [exact (wf_node_child _ _ _ _ _ Hwf E)|discriminate|exact Hm].
Qed.

Lemma in_order_span ts t u x : in_order ts -> hd_error ts = Some t -> last_opt ts = Some u -> In x ts ->
  k_pos t <= k_pos x /\ k_end x <= k_end u.
Proof.
  intros HO Ht Hu Hx. split.
  - destruct ts as [|y ts]; [discriminate|]. injection Ht as ->. destruct Hx as [->|Hx]; [lia|].
    destruct HO as [HS _]. inversion HS as [|? ? ? HF]; subst. rewrite Forall_forall in HF.
    specialize (HF _ Hx). unfold k_end in HF. lia.
  - apply last_opt_some in Hu as (ts' & ->). apply in_app_or in Hx as [Hx|[->|[]]]; [|lia].
    apply in_order_app in HO as (_ & _ & HO). specialize (HO x u Hx (or_introl eq_refl)). unfold k_end in *. lia.
Qed.

Lemma covers_up l cs i c pos : wf_children cs -> nth_error cs i = Some c -> covers pos c -> covers pos (Ctx l cs).
Proof.
  intros Hwf Hi (t & u & Ht & Hu & Hp). unfold covers. rewrite flatten_ctx.
  destruct Hwf as [_ HO]. assert (Hin : forall x, In x (flatten c) -> In x (flat cs)).
  { intros x Hx. unfold flat. apply in_concat. exists (flatten c). split; [|exact Hx].
    apply in_map. eapply nth_error_In, Hi. }
  assert (Hit : In t (flat cs)) by (apply Hin; destruct (flatten c); [discriminate|injection Ht as ->; left; reflexivity]).
  assert (Hiu : In u (flat cs)) by (apply Hin; apply last_opt_some in Hu as (x & ->); apply in_or_app; right; left; reflexivity).
  destruct (hd_error (flat cs)) as [t'|] eqn:Et; [|destruct (flat cs); [destruct Hit|discriminate]].
  destruct (last_opt (flat cs)) as [u'|] eqn:Eu; [|apply last_opt_none in Eu; rewrite Eu in Hit; destruct Hit].
  exists t', u'. split; [reflexivity|]. split; [reflexivity|].
  destruct (in_order_span _ _ _ _ HO Et Eu Hit) as [H1 _].
  destruct (in_order_span _ _ _ _ HO Et Eu Hiu) as [_ H2]. unfold k_end in H2. lia.
Qed.

Lemma covers_prefix n i c p m pos : wf_node _ _ n -> nth_error (children n) i = Some c ->
  node_at c p = Some m -> covers pos m -> covers pos c.
Proof.
  revert n i c; induction p as [|j p IH]; intros n i c Hwf Hi Hm Hc.
  - injection Hm as <-. exact Hc.
  - simpl in Hm. destruct (nth_error (children c) j) as [d|] eqn:E; [|discriminate].
    pose proof (wf_node_child _ _ _ _ _ Hwf Hi) as Hwc.
    destruct c as [t|l cs]; [destruct j; discriminate|].
    apply (covers_up l cs j d); [exact Hwc|exact E|]. exact (IH _ _ _ Hwc E Hm Hc).
Qed.

Lemma innermost pos : forall q n p l' cs', wf_node _ _ n -> trail_covers n pos q ->
  node_at n q <> None ->
  (forall m d, node_at n q = Some m -> In d (children m) -> ncovers pos d -> exists t, d = Tok t) ->
  p <> [] -> node_at n p = Some (Ctx l' cs') -> covers pos (Ctx l' cs') ->
  exists s, q = p ++ s.
Proof.
  induction q as [|j q IH]; intros n p l' cs' Hwf Hq HN Hin Hp Hm Hc.
  - exfalso. destruct p as [|i p]; [congruence|]. cbn [node_at] in Hm.
    destruct (nth_error (children n) i) as [c|] eqn:E; [|discriminate].
    destruct (Hin n c eq_refl (nth_error_In _ _ E)) as [t ->].
    + apply covers_ncovers; [exact (proj1 (wf_child _ _ _ _ _ Hwf E))|].
      exact (covers_prefix _ _ _ _ _ _ Hwf E Hm Hc).
    + destruct p as [|[] p]; discriminate.
  - destruct p as [|i p]; [congruence|]. cbn [node_at] in Hm.
    destruct (nth_error (children n) i) as [c|] eqn:E; [|discriminate].
    pose proof (covers_prefix _ _ _ _ _ _ Hwf E Hm Hc) as Hcc.
    apply covers_ncovers in Hcc; [|exact (proj1 (wf_child _ _ _ _ _ Hwf E))].
    destruct (nth_error (children n) j) as [d|] eqn:Ej.
    2:{ exfalso. apply HN. cbn [node_at]. rewrite Ej. reflexivity. }
    assert (Hd : ncovers pos d).
    { apply (Hq 1 d); [simpl; lia|]. simpl. rewrite Ej. reflexivity. }
    assert (i = j).
    { destruct (Nat.lt_trichotomy i j) as [H|[H|H]]; [|exact H|]; exfalso.
      - pose proof (wf_end_le _ _ _ _ _ Hwf H E Ej). unfold ncovers in *. lia.
      - pose proof (wf_end_le _ _ _ _ _ Hwf H Ej E). unfold ncovers in *. lia. }
    subst j. rewrite Ej in E. injection E as <-.
    destruct p as [|i2 p]; [exists q; reflexivity|].
    destruct (IH d (i2 :: p) l' cs') as [s Es]; try assumption; try discriminate.
    + exact (wf_node_child _ _ _ _ _ Hwf Ej).
    + intros k m Hk Hkm. apply (Hq (S k) m); [simpl; lia|]. simpl. rewrite Ej. exact Hkm.
    + cbn [node_at] in HN. rewrite Ej in HN. exact HN.
    + intros m b Hmm. apply Hin. cbn [node_at]. rewrite Ej. exact Hmm.
    + exists s. simpl. f_equal. exact Es.
Qed.

Lemma find_context_innermost l cs pos : wf_children cs ->
  exists q l' cs', find_context (Ctx l cs) pos = Some q /\ node_at (Ctx l cs) q = Some (Ctx l' cs') /\
    forall p l2 cs2, p <> [] -> node_at (Ctx l cs) p = Some (Ctx l2 cs2) ->
      (covers pos (Ctx l2 cs2) <-> exists s, q = p ++ s).
Proof.
  intros Hwf. destruct (find_context_ok l cs pos Hwf) as (q & m & H1 & H2 & (l' & cs' & ->) & H4 & H5).
  exists q, l', cs'. split; [exact H1|]. split; [exact H2|]. intros p l2 cs2 Hp Hm. split.
  - intros Hc. apply (innermost pos q (Ctx l cs) p l2 cs2); try assumption.
    + rewrite H2. discriminate.
    + intros m d Hmm. rewrite H2 in Hmm. injection Hmm as <-. apply H5.
  - intros [s Es]. apply covers_ncovers; [exact (node_at_full (Ctx l cs) p _ Hwf Hp Hm)|].
    apply (H4 (length p)).
    + rewrite Es, app_length. destruct p; [congruence|simpl; lia].
    + rewrite Es, firstn_app, Nat.sub_diag, firstn_all. simpl. rewrite app_nil_r. exact Hm.
Qed.

(** ** Ranges *)

(** Tokens before and after the node at the end of a path. *)
Fixpoint pre_toks n (path : list nat) : list tok :=
  match path with
  | [] => []
  | i :: path => match nth_error (children n) i with
                 | None => []
                 | Some c => flat (firstn i (children n)) ++ pre_toks c path
                 end
  end.
Fixpoint suf_toks n (path : list nat) : list tok :=
  match path with
  | [] => []
  | i :: path => match nth_error (children n) i with
                 | None => []
                 | Some c => suf_toks c path ++ flat (skipn (S i) (children n))
                 end
  end.

Lemma pre_suf n path m : node_at n path = Some m -> flatten n = pre_toks n path ++ flatten m ++ suf_toks n path.
Proof.
  revert n; induction path as [|i path IH]; intros n H.
  - simpl in *. injection H as ->. rewrite app_nil_r. reflexivity.
  - simpl in *. destruct (nth_error (children n) i) as [c|] eqn:E; [|discriminate].
    rewrite (flatten_children _ _ _ _ _ E), (IH _ H), <- !app_assoc. reflexivity.
Qed.

Lemma pre_toks_app n p q m : node_at n p = Some m -> pre_toks n (p ++ q) = pre_toks n p ++ pre_toks m q.
Proof.
  revert n; induction p as [|i p IH]; intros n H.
  - simpl in *. injection H as ->. reflexivity.
  - simpl in *. destruct (nth_error (children n) i) as [c|]; [|discriminate].
    rewrite (IH _ H), app_assoc. reflexivity.
Qed.

Lemma suf_toks_app n p q m : node_at n p = Some m -> suf_toks n (p ++ q) = suf_toks m q ++ suf_toks n p.
Proof.
  revert n; induction p as [|i p IH]; intros n H.
  - simpl in *. injection H as ->. rewrite app_nil_r. reflexivity.
  - simpl in *. destruct (nth_error (children n) i) as [c|]; [|discriminate].
    rewrite (IH _ H), app_assoc. reflexivity.
Qed.

Lemma firstn_skipn_S cs i c : nth_error cs i = Some c -> flat (firstn i cs) ++ flatten c = flat (firstn (i + 1) cs).
Proof.
  intros H. replace (i + 1) with (S i) by lia. rewrite (firstn_S_nth _ _ _ H), flat_app, flat_cons.
  unfold flat at 3. simpl. rewrite app_nil_r. reflexivity.
Qed.

(** The slices below the ancestor on the start trail complete the tokens before it. *)
Lemma trail_ancestors_ok n trail t : trail <> [] -> node_at n trail = Some (Tok t) ->
  exists l cs j up, trail_ancestors n trail = Some l /\ rev l = (cs, j) :: up /\
    pre_toks n trail ++ flat (skipn j cs) ++ flat (concat (map (fun '(cs, j) => skipn (j + 1) cs) up)) = flatten n.
Proof.
  revert n; induction trail as [|i trail IH]; intros n Hne Hat; [congruence|].
  cbn [node_at trail_ancestors pre_toks] in *.
  destruct (nth_error (children n) i) as [c|] eqn:E; [|discriminate].
  destruct trail as [|k trail].
  - simpl in Hat. injection Hat as ->. exists [(children n, i)], (children n), i, [].
    split; [reflexivity|]. split; [reflexivity|]. simpl. rewrite !app_nil_r.
    rewrite <- flat_app, firstn_skipn.
    destruct n as [|l cs]; [destruct i; discriminate|]. rewrite flatten_ctx. reflexivity.
  - destruct (IH c) as (l & cs & j & up & Hl & Hr & Hfl); [discriminate|assumption|].
    rewrite Hl. exists ((children n, i) :: l), cs, j, (up ++ [(children n, i)]).
    split; [reflexivity|]. split; [simpl; rewrite Hr; reflexivity|].
    rewrite map_app, concat_app, flat_app. simpl. rewrite app_nil_r.
    rewrite (flatten_children _ _ _ _ _ E), <- Hfl, <- !app_assoc.
    replace (i + 1) with (S i) by lia. reflexivity.
Qed.

Lemma start_slices_ok cs l trail t : trail <> [] -> node_at (Ctx l cs) trail = Some (Tok t) ->
  exists s start, start_slices cs trail = Some (s, start) /\
    pre_toks (Ctx l cs) trail ++ flat (concat s) = flat (firstn start cs) /\
    start <= length cs /\
    match trail with [i] => start = i | i :: _ => start = i + 1 | [] => True end.
Proof.
  intros Hne Hat. destruct trail as [|i [|k trail]]; [congruence| |].
  - simpl in Hat |- *. destruct (nth_error cs i) as [c|] eqn:E; [|discriminate].
    exists [], i. split; [reflexivity|]. simpl. rewrite !app_nil_r. split; [reflexivity|].
    split; [|reflexivity]. apply Nat.lt_le_incl, nth_error_Some. congruence.
  - cbn [node_at start_slices pre_toks] in *. simpl children in *.
    destruct (nth_error cs i) as [c|] eqn:E; [|discriminate].
    destruct (trail_ancestors_ok c (k :: trail) t) as (l' & cs' & j & up & Hl & Hr & Hfl);
      [discriminate|assumption|].
    rewrite Hl, Hr. do 2 eexists. split; [reflexivity|].
    split; [|split; [|reflexivity]].
    + rewrite <- (firstn_skipn_S _ _ _ E), <- Hfl. simpl concat. rewrite flat_app, <- !app_assoc. reflexivity.
    + assert (i < length cs) by (apply nth_error_Some; congruence). lia.
Qed.

Lemma end_slices_ok n trail t : trail <> [] -> node_at n trail = Some (Tok t) ->
  exists l, end_slices n trail = Some l /\ flat (concat l) = pre_toks n trail ++ [t].
Proof.
  revert n; induction trail as [|i trail IH]; intros n Hne Hat; [congruence|].
  destruct trail as [|k trail].
  - simpl in Hat |- *. destruct (nth_error (children n) i) as [c|] eqn:E; [|discriminate].
    injection Hat as ->. exists [firstn (i + 1) (children n)]. split; [reflexivity|].
    simpl. rewrite !app_nil_r, <- (firstn_skipn_S _ _ _ E). reflexivity.
  - change (end_slices n (i :: k :: trail)) with
      (match nth_error (children n) i with
       | None => None
       | Some m => match end_slices m (k :: trail) with
                   | None => None
                   | Some r => Some (firstn i (children n) :: r) end end).
    cbn [node_at pre_toks] in *.
    destruct (nth_error (children n) i) as [c|] eqn:E; [|discriminate].
    destruct (IH c) as (l & Hl & Hfl); [discriminate|assumption|].
    rewrite Hl. eexists. split; [reflexivity|]. simpl concat. rewrite flat_app, Hfl, app_assoc. reflexivity.
Qed.

Lemma u_tokens_slices ss : concat_opt (map (@u_tokens L A false) ss) = Some (flat (concat ss)).
Proof.
  induction ss as [|s ss IH]; [reflexivity|]. cbn [map concat_opt]. rewrite u_tokens_spec, IH.
  simpl concat. rewrite flat_app. reflexivity.
Qed.

Lemma flat_slice cs i j : i <= j -> flat (firstn i cs) ++ flat (slice cs i j) = flat (firstn j cs).
Proof.
  intros H. rewrite <- flat_app. f_equal. rewrite <- (slice_0 cs i), <- (slice_0 cs j).
  apply slice_app_slice; lia.
Qed.

(** Tokens of a range that ends on its end trail. *)
Lemma range_tokens_end tree path l cs st et a b :
  node_at tree path = Some (Ctx l cs) ->
  (st = [] \/ node_at (Ctx l cs) st = Some (Tok a) /\ st <> []) ->
  node_at (Ctx l cs) et = Some (Tok b) ->
  (match st, et with
   | i :: _, e :: _ => i < e \/ st = [i] /\ et = [e] /\ i = e
   | [], _ :: _ => True
   | _, [] => False
   end) ->
  exists R, range_tokens tree (Range path st et) = Some R /\
    pre_toks (Ctx l cs) st ++ R = pre_toks (Ctx l cs) et ++ [b].
Proof.
  intros Hc Hst Het Hcmp. unfold range_tokens, range_slices. simpl r_path. simpl r_start. simpl r_end.
  rewrite Hc. simpl children.
  destruct et as [|e et]; [destruct st; destruct Hcmp|].
  assert (Hs : exists s start, start_slices cs st = Some (s, start) /\
    pre_toks (Ctx l cs) st ++ flat (concat s) = flat (firstn start cs) /\
    (start < e + 1) /\ (et <> [] -> start <= e)).
  { destruct Hst as [->|[Hst Hne]].
    - exists [], 0. repeat split; try lia.
    - destruct (start_slices_ok cs l st a Hne Hst) as (s & start & H1 & H2 & H3 & H4).
      exists s, start. split; [assumption|]. split; [assumption|].
      destruct st as [|i [|i' st]]; [congruence| |].
      + subst start. destruct Hcmp as [Hlt|(_ & He & ->)]; [lia|]. injection He as ->. split; [lia|congruence].
      + subst start. destruct Hcmp as [Hlt|(Hbad & _)]; [lia|discriminate]. }
  destruct Hs as (s & start & -> & Hpre & Hlt & Hle).
  destruct et as [|e' et].
  - rewrite u_tokens_slices. eexists. split; [reflexivity|].
    rewrite concat_app, flat_app. simpl concat. rewrite app_nil_r, app_assoc, Hpre.
    rewrite flat_slice by lia. simpl in Het |- *.
    destruct (nth_error cs e) as [c|] eqn:E; [|discriminate]. injection Het as ->.
    rewrite <- (firstn_skipn_S _ _ _ E), app_nil_r. reflexivity.
  - specialize (Hle ltac:(discriminate)). cbn [node_at pre_toks] in Het |- *. simpl children in *.
    destruct (nth_error cs e) as [c|] eqn:E; [|discriminate].
    destruct (end_slices_ok c (e' :: et) b) as (ls & Hl & Hfl); [discriminate|assumption|].
    rewrite Hl, u_tokens_slices. eexists. split; [reflexivity|].
    rewrite !concat_app, !flat_app. simpl concat. rewrite app_nil_r, app_assoc, Hpre, app_assoc.
    rewrite flat_slice, Hfl by lia. rewrite <- !app_assoc. reflexivity.
Qed.

(** Tokens of a range without end trail. *)
Lemma range_tokens_open tree path l cs st a :
  node_at tree path = Some (Ctx l cs) ->
  (st = [] \/ node_at (Ctx l cs) st = Some (Tok a) /\ st <> []) ->
  exists R, range_tokens tree (Range path st []) = Some R /\
    pre_toks (Ctx l cs) st ++ R = flat cs.
Proof.
  intros Hc Hst. unfold range_tokens, range_slices. simpl r_path. simpl r_start. simpl r_end.
  rewrite Hc. simpl children.
  assert (Hs : exists s start, start_slices cs st = Some (s, start) /\
    pre_toks (Ctx l cs) st ++ flat (concat s) = flat (firstn start cs)).
  { destruct Hst as [->|[Hst Hne]].
    - exists [], 0. split; reflexivity.
    - destruct (start_slices_ok cs l st a Hne Hst) as (s & start & H1 & H2 & _). eauto. }
  destruct Hs as (s & start & -> & Hpre).
  rewrite u_tokens_slices. eexists. split; [reflexivity|].
  rewrite concat_app, flat_app. simpl concat. rewrite app_nil_r, app_assoc, Hpre, <- flat_app, firstn_skipn.
  reflexivity.
Qed.

(** Splitting off the common part of two trails. *)
Lemma common_steps_ok : forall st n et a b,
  node_at n st = Some (Tok a) -> node_at n et = Some (Tok b) -> st <> [] -> et <> [] ->
  exists p st' et' l cs, let k := common_steps n st et in
    firstn k st = p /\ skipn k st = st' /\ skipn k et = et' /\ firstn k et = p /\
    node_at n p = Some (Ctx l cs) /\
    node_at (Ctx l cs) st' = Some (Tok a) /\ node_at (Ctx l cs) et' = Some (Tok b) /\
    st' <> [] /\ et' <> [] /\
    match st', et' with
    | i :: _, e :: _ => i <> e \/ st' = [i] /\ et' = [e]
    | _, _ => False
    end.
Proof.
  induction st as [|i st IH]; intros n [|e et] a b Ha Hb Hs He; try congruence.
  assert (Hn : exists l cs, n = Ctx l cs).
  { simpl in Ha. destruct n as [|l cs]; [destruct i; discriminate|eauto]. }
  destruct Hn as (l & cs & ->). cbn [common_steps]. simpl children.
  pose proof Ha as Ha'. pose proof Hb as Hb'. cbn [node_at] in Ha', Hb'. simpl children in Ha', Hb'.
  destruct (nth_error cs i) as [c|] eqn:Ei; [|discriminate].
  destruct (nth_error cs e) as [d|] eqn:Ee; [|discriminate].
  destruct c as [t|l' cs'].
  - exists [], (i :: st), (e :: et), l, cs. repeat split; try assumption; try discriminate.
    destruct (Nat.eq_dec i e) as [->|]; [|auto]. right.
    assert (st = []) by (destruct st as [|[] ?]; [reflexivity|discriminate|discriminate]). subst st.
    rewrite Ei in Ee. injection Ee as <-.
    assert (et = []) by (destruct et as [|[] ?]; [reflexivity|discriminate|discriminate]). subst et. auto.
  - destruct (i =? e) eqn:Eie.
    + apply Nat.eqb_eq in Eie as ->. rewrite Ei in Ee. injection Ee as <-.
      destruct st as [|i' st]; [discriminate|]. destruct et as [|e' et]; [discriminate|].
      destruct (IH (Ctx l' cs') (e' :: et) a b Ha' Hb') as (p & st2 & et2 & l2 & cs2 & H); try discriminate.
      cbv zeta in H. destruct H as (H1 & H2 & H3 & H3' & H4 & H5).
      exists (e :: p), st2, et2, l2, cs2. cbv zeta. cbn [firstn skipn].
      rewrite H1, H2, H3, H3'. repeat split; try (apply H5).
      cbn [node_at]. simpl children. rewrite Ei. exact H4.
    + exists [], (i :: st), (e :: et), l, cs. repeat split; try assumption; try discriminate.
      left. lia.
Qed.

Lemma filter_split (p : tok -> bool) x R y :
  Forall (fun t => p t = false) x -> Forall (fun t => p t = true) R -> Forall (fun t => p t = false) y ->
  filter p (x ++ R ++ y) = R.
Proof.
  intros Hx HR Hy. rewrite !filter_app.
  assert (E1 : filter p x = []) by (induction Hx as [|a l Ha _ IH]; simpl; [|rewrite Ha]; auto).
  assert (E2 : filter p R = R) by (induction HR as [|a l Ha _ IH]; simpl; [|rewrite Ha; f_equal]; auto).
  assert (E3 : filter p y = []) by (induction Hy as [|a l Ha _ IH]; simpl; [|rewrite Ha]; auto).
  rewrite E1, E2, E3, app_nil_r. reflexivity.
Qed.

Lemma find_split {T} (p : T -> bool) l x : find p l = Some x ->
  exists a b, l = a ++ x :: b /\ p x = true /\ Forall (fun y => p y = false) a.
Proof.
  induction l as [|y l IH]; [discriminate|]. simpl. destruct (p y) eqn:E.
  - intros [= ->]. exists [], l. auto.
  - intros H. destruct (IH H) as (a & b & -> & H1 & H2). exists (y :: a), b. auto.
Qed.

Lemma split_unique ts a b a' b' t : in_order ts -> ts = a ++ t :: b -> ts = a' ++ t :: b' -> a = a' /\ b = b'.
Proof.
  intros HO. revert ts a' b b' HO. induction a as [|x a IH]; intros ts a' b b' HO E1 E2.
  - destruct a' as [|y a']; [subst ts; injection E2 as ->; auto|]. exfalso. subst ts. injection E2 as <- E2.
    assert (Hin : In t b) by (rewrite E2; apply in_or_app; right; left; reflexivity).
    pose proof (in_order_text _ _ t HO ltac:(left; reflexivity)).
    destruct HO as [HS _]. inversion HS as [|? ? ? HF]; subst. rewrite Forall_forall in HF.
    specialize (HF t Hin). lia.
  - destruct a' as [|y a'].
    + exfalso. subst ts. injection E2 as -> E2.
      assert (Hin : In t (a ++ t :: b)) by (apply in_or_app; right; left; reflexivity).
      pose proof (in_order_text _ _ t HO ltac:(left; reflexivity)).
      destruct HO as [HS _]. inversion HS as [|? ? ? HF]; subst. rewrite Forall_forall in HF.
      specialize (HF t Hin). lia.
    + subst ts. injection E2 as <- E2.
      assert (HO' : in_order (a ++ t :: b)).
      { change (in_order ([x] ++ (a ++ t :: b))) in HO. apply in_order_app in HO as (_ & HO & _). exact HO. }
      destruct (IH _ a' b b' HO' eq_refl E2) as [-> ->]. auto.
Qed.

(** The token at a trail, in the order of all tokens. *)
Lemma trail_split n trail t a b : in_order (flatten n) -> node_at n trail = Some (Tok t) ->
  flatten n = a ++ t :: b -> pre_toks n trail = a /\ suf_toks n trail = b.
Proof.
  intros HO Hat E. pose proof (pre_suf _ _ _ Hat) as E'. simpl in E'.
  destruct (split_unique _ _ _ _ _ _ HO E E') as [-> ->]. auto.
Qed.

Lemma nat_trail_nat (p : list nat) : nat_trail (map Z.of_nat p) = p.
Proof. unfold nat_trail. rewrite map_map. rewrite <- (map_id p) at 2. apply map_ext. apply Nat2Z.id. Qed.

Definition overlaps (start : nat) (end_ : option nat) t : bool :=
  (start <? k_end t) && match end_ with None => true | Some e => k_pos t <? e end.

Lemma in_order_before a t b x : in_order (a ++ t :: b) -> In x a -> k_end x <= k_pos t.
Proof.
  intros H Hx. apply in_order_app in H as (_ & _ & H). apply H; [assumption|left; reflexivity].
Qed.
Lemma in_order_after a t b x : in_order (a ++ t :: b) -> In x b -> k_end t <= k_pos x.
Proof.
  intros H Hx. apply in_order_app in H as (_ & [H _] & _). inversion H as [|? ? ? HF]; subst.
  rewrite Forall_forall in HF. auto.
Qed.

Lemma range_ok l cs start end_ : wf_children cs ->
  match end_ with None => True | Some e => start < e end ->
  (exists t, In t (flat cs) /\ overlaps start end_ t = true) ->
  exists r, range_from_tree (Ctx l cs) start end_ = Some (Some r) /\
    range_tokens (Ctx l cs) r = Some (filter (overlaps start end_) (flat cs)).
Proof.
  intros Hwf Hse (tx & Htx & Hov). pose proof Hwf as [HF HO].
  assert (Hne : cs <> []) by (intros ->; destruct Htx).
  assert (HO' : in_order (flatten (Ctx l cs))) by (rewrite flatten_ctx; exact HO).
  unfold overlaps in Hov. apply andb_prop in Hov as [Hov1 Hov2].
  pose proof (in_order_text _ _ _ HO Htx) as Htxt.
  (* the start *)
  assert (Hstart : exists sres, (start = 0 /\ sres = [] \/
     exists a, start <> 0 /\ sres <> [] /\ find_token_with_trail cs start = Some (Some (a, map Z.of_nat sres))
        /\ node_at (Ctx l cs) sres = Some (Tok a) /\ start < k_end a
        /\ k_pos a <= k_pos tx) /\
     Forall (fun t => start <? k_end t = false) (pre_toks (Ctx l cs) sres) /\
     (forall y z, flat cs = pre_toks (Ctx l cs) sres ++ y ++ z -> Forall (fun t => start <? k_end t = true) y)).
  { destruct (start =? 0) eqn:E0.
    - exists []. split; [left; split; [lia|reflexivity]|]. split; [constructor|].
      intros y z E. simpl in E. apply Forall_forall. intros t Ht.
      assert (In t (flat cs)) by (rewrite E; apply in_or_app; auto).
      pose proof (in_order_text _ _ _ HO H). lia.
    - pose proof (find_with_trail_spec _ _ (sel_first A (fun t => k_end t <=? start)) (c_find start) cs
                    (sel_first_ok A _) (fun cs H => c_find_pick _ _ start cs H) Hwf) as H.
      destruct (sel_first A (fun t => k_end t <=? start) (flat cs)) as [a|] eqn:Es.
      + destruct H as (trail & Hft & Htne & Hat). exists trail. specialize (Hat l).
        unfold sel_first in Es. apply find_split in Es as (x & y & E & Pa & Px).
        destruct (trail_split _ _ _ x y HO' Hat ltac:(rewrite flatten_ctx; exact E)) as [Epre Esuf].
        split; [right; exists a; repeat split; try assumption; [lia|lia|]|].
        * (* a before tx *)
          rewrite E in Htx. apply in_app_or in Htx as [Hx|[->|Hy]]; [|lia|].
          -- rewrite Forall_forall in Px. specialize (Px _ Hx). simpl in Px. lia.
          -- rewrite E in HO. pose proof (in_order_after _ _ _ _ HO Hy). unfold k_end in *. lia.
        * rewrite Epre. split; [apply Forall_impl with (2 := Px); simpl; intros; lia|].
          intros u v Euv. rewrite E in Euv. apply app_inv_head in Euv.
          apply Forall_forall. intros t Ht.
          assert (Hin : In t (a :: y)) by (rewrite Euv; apply in_or_app; auto).
          destruct Hin as [<-|Hin]; [lia|]. rewrite E in HO.
          pose proof (in_order_after _ _ _ _ HO Hin). unfold k_end in *. lia.
      + exfalso. unfold sel_first in Es. apply find_none with (x := tx) in Es; [|assumption]. lia. }
  destruct Hstart as (st & Hst & Hpre & Hinc).
  unfold range_from_tree. simpl children. destruct cs as [|c0 cs0] eqn:Ecs; [congruence|]. rewrite <- Ecs in *. clear c0 cs0 Ecs.
  destruct (match end_ with Some e => e <? n_end (Ctx l cs) | None => false end) eqn:Ee.
  - (* with an end trail *)
    destruct end_ as [e|]; [|discriminate]. rewrite Ee.
    destruct (e <=? start) eqn:Ele; [lia|].
    pose proof (find_with_trail_spec _ _ (sel_last A (fun t => k_pos t <? e)) (c_find_left e) cs
                  (sel_last_ok A _) (fun cs H => c_find_left_pick _ _ e cs H) Hwf) as H.
    destruct (sel_last A (fun t => k_pos t <? e) (flat cs)) as [b|] eqn:Es.
    2:{ exfalso. unfold sel_last, find_last in Es. apply find_none with (x := tx) in Es; [lia|].
        apply in_rev in Htx. exact Htx. }
    destruct H as (et & Hft & Hetne & Hbat). specialize (Hbat l).
    unfold find_token_left_with_trail. rewrite Hft, nat_trail_nat.
    unfold sel_last, find_last in Es. apply find_split in Es as (y & x & E & Pb & Py).
    apply (f_equal (@rev tok)) in E. rewrite rev_involutive, rev_app_distr in E. simpl in E.
    rewrite <- app_assoc in E. simpl in E.
    assert (Py' : Forall (fun t => k_pos t <? e = false) (rev y)).
    { apply Forall_forall. intros t Ht. apply in_rev in Ht. rewrite Forall_forall in Py. apply Py, Ht. }
    revert E Py'. generalize (rev y) as y', (rev x) as x'. clear x y Py. intros y x E Py.
    destruct (trail_split _ _ _ x y HO' Hbat ltac:(rewrite flatten_ctx; exact E)) as [Epre Esuf].
    assert (Hbx : Forall (fun t => k_pos t <? e = true) (x ++ [b])).
    { apply Forall_app; split; [|repeat constructor; exact Pb].
      apply Forall_forall. intros t Ht. rewrite E in HO. pose proof (in_order_before _ _ _ _ HO Ht).
      pose proof (in_order_text _ _ t HO ltac:(apply in_or_app; auto)). lia. }
    assert (Hbtx : k_pos tx <= k_pos b).
    { rewrite E in Htx. apply in_app_or in Htx as [Hx|[->|Hy]]; [|lia|].
      - rewrite E in HO. pose proof (in_order_before _ _ _ _ HO Hx). lia.
      - rewrite Forall_forall in Py. specialize (Py _ Hy). simpl in Py. lia. }
    assert (Hfin : forall R z, flat cs = pre_toks (Ctx l cs) st ++ R ++ z -> z = y ->
               pre_toks (Ctx l cs) st ++ R = x ++ [b] -> R = filter (overlaps start (Some e)) (flat cs)).
    { intros R z Ez -> Exb. rewrite Ez. symmetry. unfold overlaps. apply filter_split.
      - apply Forall_impl with (2 := Hpre). intros t Ht. rewrite Ht. reflexivity.
      - pose proof (Hinc R y Ez) as H1. rewrite <- Exb in Hbx. apply Forall_app in Hbx as [_ H2].
        apply Forall_forall. intros t Ht. rewrite Forall_forall in H1, H2.
        rewrite (H1 t Ht), (H2 t Ht). reflexivity.
      - apply Forall_impl with (2 := Py). intros t Ht. rewrite Ht. apply andb_false_r. }
    destruct Hst as [[-> ->]|(a & Hs0 & Hstne & Hfs & Haat & Hae & Hatx)].
    + simpl. eexists. split; [reflexivity|].
      destruct (range_tokens_end (Ctx l cs) [] l cs [] et b b eq_refl (or_introl eq_refl) Hbat) as (R & HR & HRe).
      { destruct et; [congruence|exact I]. }
      rewrite HR. f_equal. rewrite Epre in HRe. apply (Hfin R y); [|reflexivity|exact HRe].
      simpl in HRe |- *. rewrite HRe, <- app_assoc. exact E.
    + destruct (start =? 0) eqn:E0; [lia|]. rewrite Hfs, nat_trail_nat.
      destruct et as [|e0 et0] eqn:Eet; [congruence|]. rewrite <- Eet in *. clear e0 et0 Eet.
      eexists. split; [reflexivity|].
      destruct (common_steps_ok st (Ctx l cs) et a b Haat Hbat Hstne Hetne)
        as (p & st' & et' & l' & cs' & Hc). cbv zeta in Hc.
      destruct Hc as (Hp & Hs' & He' & Hp' & Hat' & Ha' & Hb' & Hsne' & Hene' & Hcmp).
      rewrite Hp, Hs', He'.
      assert (Est : st = p ++ st') by (rewrite <- Hp, <- Hs', firstn_skipn; reflexivity).
      assert (Eet : et = p ++ et') by (rewrite <- Hp', <- He', firstn_skipn; reflexivity).
      assert (Hwf' : wf_children cs').
      { clear -Hat' Hwf. revert cs l Hat' Hwf. induction p as [|i p IH]; intros cs l Hat Hwf.
        - simpl in Hat. injection Hat as -> ->. exact Hwf.
        - simpl in Hat. destruct (nth_error cs i) as [c|] eqn:Ei; [|discriminate].
          pose proof (wf_node_child _ _ _ _ _ Hwf Ei) as Hc. destruct c as [t|lc csc].
          + destruct p as [|j p]; [discriminate|]. simpl in Hat. destruct j; discriminate.
          + apply (IH csc lc Hat Hc). }
      destruct (range_tokens_end (Ctx l cs) p l' cs' st' et' a b Hat' (or_intror (conj Ha' Hsne')) Hb')
        as (R & HR & HRe).
      { destruct st' as [|i st']; [congruence|]. destruct et' as [|j et']; [congruence|].
        destruct Hcmp as [Hne'|[Hc1 Hc2]].
        - left. destruct (Nat.lt_ge_cases i j) as [|Hge]; [assumption|]. exfalso.
          assert (Hlt : j < i) by lia.
          cbn [node_at] in Ha', Hb'. simpl children in Ha', Hb'.
          destruct (nth_error cs' i) as [ci|] eqn:Ei; [|discriminate].
          destruct (nth_error cs' j) as [cj|] eqn:Ej; [|discriminate].
          pose proof (wf_end_le _ _ _ _ _ Hwf' Hlt Ej Ei) as Hle.
          assert (Hia : In a (flatten ci)) by (rewrite (pre_suf _ _ _ Ha'); apply in_or_app; right; left; reflexivity).
          assert (Hjb : In b (flatten cj)) by (rewrite (pre_suf _ _ _ Hb'); apply in_or_app; right; left; reflexivity).
          destruct (nth_split2 _ _ _ _ _ _ _ Hlt Ej Ei) as (u & v & w & Ecs').
          destruct Hwf' as [_ HO2]. rewrite Ecs', flat_app, flat_cons, flat_app, flat_cons in HO2.
          apply in_order_app in HO2 as (_ & HO2 & _).
          pose proof (in_order_text _ _ b HO2 ltac:(apply in_or_app; auto)).
          apply in_order_app in HO2 as (_ & _ & HO2).
          specialize (HO2 b a Hjb ltac:(apply in_or_app; right; apply in_or_app; auto)). lia.
        - injection Hc1 as ->. injection Hc2 as ->. destruct (Nat.eq_dec i j) as [->|]; [right; auto|].
          left. destruct (Nat.lt_ge_cases i j) as [|Hge]; [assumption|]. exfalso.
          assert (Hlt : j < i) by lia. cbn [node_at] in Ha', Hb'. simpl children in Ha', Hb'.
          destruct (nth_error cs' i) as [ci|] eqn:Ei; [|discriminate].
          destruct (nth_error cs' j) as [cj|] eqn:Ej; [|discriminate].
          injection Ha' as ->. injection Hb' as ->.
          pose proof (wf_pos_lt _ _ _ _ _ _ _ Hwf' Hlt Ej Ei) as Hle. unfold n_pos in Hle. simpl in Hle. lia. }
      rewrite HR. f_equal.
      assert (Hpq : pre_toks (Ctx l cs) st ++ R = x ++ [b]).
      { rewrite Est, (pre_toks_app _ _ _ _ Hat'), <- app_assoc, HRe, app_assoc.
        rewrite <- (pre_toks_app _ _ _ _ Hat'), <- Eet, Epre. reflexivity. }
      apply (Hfin R y); [|reflexivity|exact Hpq].
      rewrite app_assoc, Hpq, <- app_assoc. exact E.
  - (* without an end trail *)
    assert (Hmatch : (match end_ with
        | Some e => if e <? n_end (Ctx l cs) then
              if e <=? start then Some None
              else match find_token_left_with_trail cs e with
                   | None => None
                   | Some None => Some None
                   | Some (Some (_, t)) => Some (Some (nat_trail t))
                   end
            else Some (Some [])
        | None => Some (Some []) end) = Some (Some (@nil nat))).
    { destruct end_ as [e|]; [rewrite Ee; reflexivity|reflexivity]. }
    rewrite Hmatch.
    assert (Hall : Forall (fun t => match end_ with None => true | Some e => k_pos t <? e end = true) (flat cs)).
    { destruct end_ as [e|]; [|apply Forall_forall; reflexivity].
      assert (Hfull : full (Ctx l cs)) by (constructor; assumption).
      destruct (n_end_last _ Hfull) as (tl & ts' & Etl & Hn). rewrite flatten_ctx in Etl.
      apply Forall_forall. intros t Ht.
      assert (k_end t <= k_end tl).
      { rewrite Etl in Ht. apply in_app_or in Ht as [Ht|[->|[]]]; [|lia].
        rewrite Etl in HO. pose proof (in_order_before _ _ _ _ HO Ht). unfold k_end in *. lia. }
      pose proof (in_order_text _ _ _ HO Ht). lia. }
    assert (Hfin : forall R, pre_toks (Ctx l cs) st ++ R = flat cs -> R = filter (overlaps start end_) (flat cs)).
    { intros R ER. rewrite <- ER. rewrite <- (app_nil_r R) at 2. symmetry. apply filter_split.
      - apply Forall_impl with (2 := Hpre). unfold overlaps. intros t Ht. rewrite Ht. reflexivity.
      - pose proof (Hinc R [] ltac:(rewrite app_nil_r; symmetry; exact ER)) as H1.
        rewrite <- ER in Hall. apply Forall_app in Hall as [_ H2].
        apply Forall_forall. intros t Ht. rewrite Forall_forall in H1, H2. unfold overlaps.
        rewrite (H1 t Ht). apply (H2 t Ht).
      - constructor. }
    destruct Hst as [[-> ->]|(a & Hs0 & Hstne & Hfs & Haat & Hae & Hatx)].
    + simpl. eexists. split; [reflexivity|].
      destruct (range_tokens_open (Ctx l cs) [] l cs [] tx eq_refl (or_introl eq_refl)) as (R & HR & HRe).
      rewrite HR. f_equal. apply Hfin, HRe.
    + destruct (start =? 0) eqn:E0; [lia|]. rewrite Hfs, nat_trail_nat. eexists. split; [reflexivity|].
      simpl firstn. simpl skipn.
      destruct (range_tokens_open (Ctx l cs) [] l cs st a eq_refl (or_intror (conj Haat Hstne))) as (R & HR & HRe).
      rewrite HR. f_equal. apply Hfin, HRe.
Qed.

End Proofs.
