(** Proofs about deleting the nodes of a query. *)
From Verif Require Import Base LexerModel TreeModel TreeSpec TreeProofs TreeWalkProofs TreeDeleteProofs QueryModel QuerySpec QueryProofs.
From Coq Require Import ZifyBool Permutation Sorting.Sorted.

(** * Covered nodes *)

Lemma covered_ok V p : covered V p = true <-> exists s, In s V /\ prefix s p.
Proof.
  unfold covered. rewrite existsb_exists. split; intros [s [H E]]; exists s; (split; [exact H | now apply prefixb_ok]).
Qed.
Lemma covered_no V p : covered V p = false <-> forall s, In s V -> ~ prefix s p.
Proof.
  rewrite <- not_true_iff_false, covered_ok. split; [intros H s H1 H2; apply H; eauto | intros H [s [H1 H2]]; exact (H s H1 H2)].
Qed.
Lemma covered_down V p q : prefix p q -> covered V p = true -> covered V q = true.
Proof. intros H. rewrite !covered_ok. intros [s [H1 H2]]. exists s. split; [exact H1 | eapply prefix_trans; eassumption]. Qed.
Lemma bool_iff (a b : bool) : (a = true <-> b = true) -> a = b.
Proof. destruct a, b; intuition congruence. Qed.
Lemma covered_same V W p : (forall x, In x V <-> In x W) -> covered V p = covered W p.
Proof. intros H. apply bool_iff. rewrite !covered_ok. split; intros [s [H1 H2]]; exists s; (split; [now apply H | exact H2]). Qed.
Lemma mem_same V W p : (forall x, In x V <-> In x W) -> mem p V = mem p W.
Proof. intros H. apply bool_iff. rewrite !mem_ok. apply H. Qed.

Lemma prefix_snoc_self (p : path) i : prefix p (p ++ [i]).
Proof. now exists [i]. Qed.
Lemma prefix_len (a b : path) : prefix a b -> length a <= length b.
Proof. intros [r ->]. rewrite app_length. lia. Qed.
Lemma below_len (a b : path) : below a b -> length a < length b.
Proof. intros [i [r ->]]. rewrite app_length. cbn. lia. Qed.
Lemma prefix_below (a b : path) : prefix a b -> a = b \/ below a b.
Proof. intros [[| i r] ->]; [left; now rewrite app_nil_r | right; now exists i, r]. Qed.
Lemma below_trans (a b c : path) : below a b -> prefix b c -> below a c.
Proof. intros [i [r ->]] [s ->]. exists i, (r ++ s). now rewrite <- app_assoc. Qed.
Lemma below_trans' (a b c : path) : prefix a b -> below b c -> below a c.
Proof. intros [r ->] [i [s ->]]. destruct r as [| j r]; [exists i, s; now rewrite app_nil_r | exists j, (r ++ i :: s); now rewrite <- app_assoc]. Qed.
Lemma below_snoc_self (p : path) i : below p (p ++ [i]).
Proof. now exists i, []. Qed.
Lemma prefix_total (a b c : path) : prefix a c -> prefix b c -> prefix a b \/ below b a.
Proof.
  revert b c. induction a as [| x a IH]; intros b c [r E] [s F]; [left; now exists b |].
  destruct b as [| y b]; [right; now exists x, a |]. subst c. cbn [app] in F. injection F as <- F.
  destruct (IH b (a ++ r)) as [[t ->] | [i [t ->]]]; [now exists r | now exists s | left; now exists t | right; now exists i, t].
Qed.
Lemma snoc_inj (p q : path) i j : p ++ [i] = q ++ [j] -> p = q /\ i = j.
Proof. apply app_inj_tail. Qed.

Section Proofs.
Variables L A : Type.
Notation node := (node L A).

Lemma pruned_ctx V p l (cs : list node) : pruned V p (Ctx l cs) =
  if covered V p then None else
  match pruned_list V p 0 cs, cs with [], _ :: _ => None | cs', _ => Some (Ctx l cs') end.
Proof.
  cbn [pruned]. destruct (covered V p); [reflexivity |].
  match goal with |- match ?a with _ => _ end = _ => replace a with (pruned_list V p 0 cs); [reflexivity |] end.
  generalize 0. induction cs as [| c cs IH]; intros i; [reflexivity |]. cbn [pruned_list]. rewrite IH. reflexivity.
Qed.
Lemma pruned_tok V p t : pruned V p (Tok t : node) = if covered V p then None else Some (Tok t).
Proof. reflexivity. Qed.
Lemma pruned_covered V p (n : node) : covered V p = true -> pruned V p n = None.
Proof. intros H. destruct n; cbn [pruned]; now rewrite H. Qed.
Lemma removed_ctx V p l (cs : list node) : removed V p (Ctx l cs) =
  match pruned V p (Ctx l cs) with None => 1 | Some _ => removed_list V p 0 cs end.
Proof.
  cbn [removed]. destruct (pruned V p (Ctx l cs)) as [m |]; [| reflexivity].
  match goal with |- ?f 0 cs = _ => enough (X : forall cs i, f i cs = removed_list V p i cs) by apply X end.
  clear. induction cs as [| c cs IH]; intros i; [reflexivity |]. cbn [removed_list]. now rewrite IH.
Qed.
Lemma removed_none V p (n : node) : pruned V p n = None -> removed V p n = 1.
Proof. intros H. destruct n as [t | l cs]; [| now rewrite removed_ctx, H]. cbn [removed]. now rewrite H. Qed.

(** Children that are treated the same way. *)
Lemma lists_same V W p : forall (cs : list node) i,
  (forall k c, nth_error cs k = Some c -> pruned V (p ++ [i + k]) c = pruned W (p ++ [i + k]) c /\ removed V (p ++ [i + k]) c = removed W (p ++ [i + k]) c) ->
  pruned_list V p i cs = pruned_list W p i cs /\ removed_list V p i cs = removed_list W p i cs.
Proof.
  induction cs as [| c cs IH]; intros i H; [split; reflexivity |]. cbn [pruned_list removed_list].
  destruct (H 0 c eq_refl) as [H1 H2]. rewrite Nat.add_0_r in H1, H2. rewrite H1, H2.
  destruct (IH (S i)) as [I1 I2]; [| rewrite I1, I2; split; reflexivity].
  intros k d Hk. specialize (H (S k) d Hk). now rewrite <- plus_n_Sm in H.
Qed.

Lemma pruned_ext V W : (forall p, covered V p = covered W p) -> forall (n : node) p, pruned V p n = pruned W p n /\ removed V p n = removed W p n.
Proof.
  intros H n. induction n as [t | l cs IH] using node_ind'; intros p.
  - cbn [removed]. rewrite !pruned_tok, H. split; reflexivity.
  - rewrite !removed_ctx, !pruned_ctx, H. destruct (lists_same V W p cs 0) as [E1 E2].
    + intros k c Hk. rewrite Forall_forall in IH. apply IH. eapply nth_error_In, Hk.
    + rewrite E1, E2. split; reflexivity.
Qed.

(** ** The tokens that stay *)

Lemma tokens_ctx p l (cs : list node) : forall q t, In (q, t) (tokens_at p (Ctx l cs)) -> prefix p q.
Proof.
  enough (H : forall (n : node) p q t, In (q, t) (tokens_at p n) -> prefix p q) by (intros q t; apply H).
  clear. intros n. induction n as [t | l cs IH] using node_ind'; intros p q u H.
  - destruct H as [E | []]. injection E as <- <-. apply prefix_refl.
  - cbn [tokens_at] in H. revert H. generalize 0. induction IH as [| c cs Hc _ IHc]; intros i; [contradiction |].
    rewrite in_app_iff. intros [H | H]; [| exact (IHc _ H)]. apply Hc in H. eapply prefix_trans; [apply prefix_snoc_self | exact H].
Qed.
Fixpoint tokens_list (p : path) (i : nat) (cs : list node) : list (path * tok A) :=
  match cs with [] => [] | c :: cs => tokens_at (p ++ [i]) c ++ tokens_list p (S i) cs end.
Lemma tokens_at_ctx p l cs : tokens_at p (Ctx l cs) = tokens_list p 0 cs.
Proof. cbn [tokens_at]. generalize 0. induction cs as [| c cs IH]; intros i; [reflexivity |]. cbn [tokens_list]. now rewrite IH. Qed.

Definition remaining (V : list path) (x : list (path * tok A)) : list (tok A) := map snd (filter (fun y => negb (covered V (fst y))) x).
Lemma remaining_app V a b : remaining V (a ++ b) = remaining V a ++ remaining V b.
Proof. unfold remaining. now rewrite filter_app, map_app. Qed.
Lemma remaining_covered V p (n : node) : covered V p = true -> remaining V (tokens_at p n) = [].
Proof.
  intros H. unfold remaining. replace (filter _ _) with ([] : list (path * tok A)); [reflexivity |].
  assert (X : forall q t, In (q, t) (tokens_at p n) -> prefix p q).
  { destruct n as [t | l cs]; [| apply tokens_ctx]. intros q u [E | []]. injection E as <- <-. apply prefix_refl. }
  induction (tokens_at p n) as [| [q t] ts IH]; [reflexivity |]. cbn [filter fst].
  rewrite (covered_down V p q (X q t (or_introl eq_refl)) H). cbn [negb]. apply IH. intros q' t' H'. apply (X q' t'). now right.
Qed.
Lemma flatten_pruned V : forall (n : node) p,
  match pruned V p n with None => [] | Some m => flatten m end = remaining V (tokens_at p n).
Proof.
  intros n. induction n as [t | l cs IH] using node_ind'; intros p.
  - rewrite pruned_tok. unfold remaining. cbn [tokens_at filter fst]. destruct (covered V p); reflexivity.
  - destruct (covered V p) eqn:E; [now rewrite (pruned_covered _ _ _ E), remaining_covered |].
    rewrite pruned_ctx, E, tokens_at_ctx.
    assert (X : forall i, flat (pruned_list V p i cs) = remaining V (tokens_list p i cs)).
    { clear E. induction IH as [| c cs Hc _ IHc]; intros i; [reflexivity |]. cbn [pruned_list tokens_list]. rewrite remaining_app, <- Hc, <- IHc.
      destruct (pruned V (p ++ [i]) c); reflexivity. }
    rewrite <- X. destruct (pruned_list V p 0 cs), cs; try reflexivity; apply flatten_ctx.
Qed.
Lemma flatten_deleted V l (cs : list node) : covered V [] = false ->
  flatten (deleted_tree V (Ctx l cs)) = remaining V (tokens_at [] (Ctx l cs)).
Proof.
  intros H. rewrite <- flatten_pruned, pruned_ctx, H. cbn [deleted_tree]. rewrite flatten_ctx.
  destruct (pruned_list V [] 0 cs), cs; try reflexivity; now rewrite flatten_ctx.
Qed.

Variable root : node.
Notation at_ := (at_ root). Notation len := (len root). Notation kids := (kids root).

(** * Sets of nodes that are deleted *)

(** None is below another. *)
Definition apart (N : list path) : Prop := forall a b, In a N -> In b N -> ~ below a b.

(** ** uniq and remove_descendants *)

Lemma top_ancestor ns : forall s, In s ns -> exists a, In a ns /\ prefix a s /\ forall b, In b ns -> ~ below b a.
Proof.
  intros s. remember (length s) as k eqn:E. revert s E. induction k as [k IH] using lt_wf_ind. intros s -> Hs.
  destruct (existsb (fun a => mem a ns) (ancs s)) eqn:X.
  - apply existsb_exists in X. destruct X as [a [H1 H2]]. apply ancs_in in H1. apply mem_ok in H2.
    destruct (IH (length a) (below_len _ _ H1) a eq_refl H2) as [b [B1 [B2 B3]]]. exists b. repeat split; [exact B1 | | exact B3].
    eapply prefix_trans; [exact B2 |]. apply below_prefix in H1. apply H1.
  - exists s. repeat split; [exact Hs | apply prefix_refl |]. intros b Hb Hbs.
    assert (Y : existsb (fun a => mem a ns) (ancs s) = true); [| congruence].
    apply existsb_exists. exists b. split; [now apply ancs_in | now apply mem_ok].
Qed.
Lemma topmost_ok ns : let N := q_remove_descendants (q_uniq ns) in
  NoDup N /\ apart N /\ (forall x, In x N -> In x ns) /\ (forall p, covered N p = covered ns p).
Proof.
  intros N. destruct (remove_descendants_ok (q_uniq ns)) as [keep [E K]]. unfold N. rewrite E. repeat split.
  - apply NoDup_filter, uniq_nodup.
  - intros a b Ha Hb H. apply filter_In in Ha, Hb. apply (proj1 (K b) (proj2 Hb)). exists a. split; [apply Ha | exact H].
  - intros x Hx. apply filter_In in Hx. apply uniq_in, Hx.
  - intros p. apply bool_iff. rewrite !covered_ok. split.
    + intros [s [H1 H2]]. apply filter_In in H1. exists s. split; [apply uniq_in, H1 | exact H2].
    + intros [s [H1 H2]]. destruct (top_ancestor ns s H1) as [a [A1 [A2 A3]]]. exists a. split; [| eapply prefix_trans; eassumption].
      apply filter_In. split; [now apply uniq_in |]. apply K. intros [b [B1 B2]]. exact (A3 b (proj1 (uniq_in ns b) B1) B2).
Qed.

(** ** A context that loses all children *)

Lemma up_step V W p0 l0 cs0 : node_at root p0 = Some (Ctx l0 cs0) -> cs0 <> [] ->
  (forall i, i < length cs0 -> covered V (p0 ++ [i]) = true) ->
  (forall q, covered W q = covered V q || prefixb p0 q) ->
  forall n p, node_at root p = Some n -> ~ below p0 p -> pruned V p n = pruned W p n /\ removed V p n = removed W p n.
Proof.
  intros H0 Hne Hall Hc n. induction n as [t | l cs IH] using node_ind'; intros p Hp Hb.
  - cbn [removed]. rewrite !pruned_tok, Hc. destruct (prefixb p0 p) eqn:E; [| rewrite orb_false_r; split; reflexivity]. exfalso.
    apply prefixb_ok, prefix_below in E. destruct E as [<- | E]; [congruence | contradiction].
  - destruct (list_eq_dec Nat.eq_dec p0 p) as [<- | Hne0].
    + rewrite Hp in H0. injection H0 as <- <-.
      assert (E1 : pruned W p0 (Ctx l cs) = None).
      { apply pruned_covered. rewrite Hc. replace (prefixb p0 p0) with true; [apply orb_true_r |]. symmetry. apply prefixb_ok, prefix_refl. }
      assert (E2 : pruned V p0 (Ctx l cs) = None).
      { rewrite pruned_ctx. destruct (covered V p0); [reflexivity |].
        assert (X : forall (cs' : list node) i, i + length cs' <= length cs -> pruned_list V p0 i cs' = []).
        { induction cs' as [| c cs' IHc]; intros i Hi; [reflexivity |]. cbn [pruned_list length] in *. rewrite pruned_covered by (apply Hall; lia).
          apply IHc. lia. }
        rewrite X by lia. destruct cs; [congruence | reflexivity]. }
      rewrite E1, E2. split; [reflexivity |]. now rewrite !removed_none.
    + assert (E : prefixb p0 p = false).
      { apply not_true_iff_false. rewrite prefixb_ok. intros X. apply prefix_below in X. tauto. }
      rewrite !removed_ctx, !pruned_ctx, Hc, E, orb_false_r. destruct (lists_same V W p cs 0) as [E1 E2].
      * intros k c Hk. rewrite Forall_forall in IH. apply IH; [eapply nth_error_In, Hk | now rewrite (node_at_snoc _ _ _ _ _ _ Hp) |].
        intros X. apply below_prefix in X. destruct X as [X1 X2]. apply prefix_snoc in X1. destruct X1 as [X1 | X1]; [| congruence].
        apply prefixb_ok in X1. congruence.
      * rewrite E1, E2. split; reflexivity.
Qed.
Lemma up_step_root V W p0 l0 cs0 l cs : root = Ctx l cs -> node_at root p0 = Some (Ctx l0 cs0) -> cs0 <> [] -> p0 <> [] ->
  (forall i, i < length cs0 -> covered V (p0 ++ [i]) = true) ->
  (forall q, covered W q = covered V q || prefixb p0 q) ->
  pruned_list V [] 0 cs = pruned_list W [] 0 cs /\ removed_list V [] 0 cs = removed_list W [] 0 cs.
Proof.
  intros Hr H0 Hne Hp0 Hall Hc. apply lists_same. intros k c Hk. eapply up_step; try eassumption.
  - rewrite Hr. cbn. now rewrite Hk.
  - intros [i [r E]]. destruct p0 as [| j p0]; [congruence |]. cbn in E. injection E as _ E. now destruct p0.
Qed.

(** ** The dict *)

Definition nodes_of (d : dict) : list path := concat (map snd d).

Lemma nodes_of_in d n : In n (nodes_of d) <-> exists k l, In (k, l) d /\ In n l.
Proof.
  unfold nodes_of. rewrite in_concat. split.
  - intros [l [H1 H2]]. apply in_map_iff in H1. destruct H1 as [[k l'] [<- H1]]. now exists k, l'.
  - intros [k [l [H1 H2]]]. exists l. split; [| exact H2]. apply in_map_iff. now exists (k, l).
Qed.
Lemma key_unique (d : dict) k l l' : NoDup (map fst d) -> In (k, l) d -> In (k, l') d -> l = l'.
Proof.
  induction d as [| [k0 l0] d IH]; cbn [map fst]; intros N H1 H2; [contradiction |]. inversion N as [| ? ? N1 N2]; subst.
  assert (X : forall x, In (k0, x) d -> False) by (intros x Hx; apply N1; apply in_map_iff; now exists (k0, x)).
  destruct H1 as [E1 | H1], H2 as [E2 | H2].
  - congruence.
  - injection E1 as -> ->. destruct (X _ H2).
  - injection E2 as -> ->. destruct (X _ H1).
  - now apply IH.
Qed.
Lemma d_append_nodes d k n : Permutation (n :: nodes_of d) (nodes_of (d_append d k n)).
Proof.
  induction d as [| [k' l] d IH]; [apply Permutation_refl |]. cbn [d_append]. unfold nodes_of in *. destruct (path_eqb k k'); cbn [map snd concat].
  - rewrite <- app_assoc. apply Permutation_middle.
  - eapply Permutation_trans; [apply Permutation_middle |]. now apply Permutation_app_head.
Qed.
Lemma d_append_in d k n k' l : In (k', l) (d_append d k n) ->
  (k' <> k /\ In (k', l) d) \/ (k' = k /\ exists l0, l = l0 ++ [n] /\ (l0 = [] \/ In (k, l0) d)) \/ In (k', l) d.
Proof.
  induction d as [| [k0 l0] d IH]; cbn [d_append].
  - intros [E | []]. injection E as <- <-. right. left. split; [reflexivity |]. exists []. auto.
  - destruct (path_eqb k k0) eqn:E.
    + apply path_eqb_ok in E. subst k0. intros [E | H]; [| right; right; now right]. injection E as <- <-. right. left. split; [reflexivity |].
      exists l0. split; [reflexivity |]. right. now left.
    + intros [E' | H]; [right; right; now left |]. destruct (IH H) as [[H1 H2] | [[H1 [l1 [H2 H3]]] | H1]].
      * left. split; [exact H1 | now right].
      * right. left. split; [exact H1 |]. exists l1. split; [exact H2 |]. destruct H3; [now left | right; now right].
      * right. right. now right.
Qed.
Lemma d_append_other d k n k' l : k' <> k -> In (k', l) d -> In (k', l) (d_append d k n).
Proof.
  intros Hk. induction d as [| [k0 l0] d IH]; cbn [d_append]; [contradiction |]. destruct (path_eqb k k0) eqn:E.
  - apply path_eqb_ok in E. subst k0. intros [E | H]; [congruence | now right].
  - intros [E' | H]; [now left | right; now apply IH].
Qed.
Lemma d_append_key d k n k' : In k' (map fst (d_append d k n)) -> k' = k \/ In k' (map fst d).
Proof.
  intros H. apply in_map_iff in H. destruct H as [[k0 l] [<- H]]. cbn [fst]. apply d_append_in in H.
  destruct H as [[_ H] | [[H _] | H]]; [right | left; exact H | right]; apply in_map_iff; now exists (k0, l).
Qed.
Lemma d_append_keys d k n : NoDup (map fst d) -> NoDup (map fst (d_append d k n)).
Proof.
  induction d as [| [k0 l0] d IH]; cbn [d_append map fst]; intros H; [repeat constructor; auto |]. destruct (path_eqb k k0) eqn:E; [exact H |].
  apply path_eqb_no in E. inversion H as [| ? ? N1 N2]; subst. cbn [map fst]. constructor; [| now apply IH].
  intros X. apply d_append_key in X. destruct X as [X | X]; [congruence | contradiction].
Qed.
Lemma d_del_in d k k' l : In (k', l) (d_del d k) <-> In (k', l) d /\ k' <> k.
Proof.
  unfold d_del. rewrite filter_In. cbn [fst]. rewrite negb_true_iff, path_eqb_no. split; intros [H1 H2]; (split; [exact H1 | congruence]).
Qed.
Lemma d_del_keys d k : NoDup (map fst d) -> NoDup (map fst (d_del d k)).
Proof.
  induction d as [| [k0 l0] d IH]; cbn [d_del filter map fst]; intros H; [constructor |]. inversion H as [| ? ? N1 N2]; subst.
  destruct (negb (path_eqb k k0)); [| now apply IH]. cbn [map fst]. constructor; [| now apply IH].
  intros X. apply in_map_iff in X. destruct X as [[k1 l1] [X1 X2]]. cbn [fst] in X1. subst k1. apply d_del_in in X2. apply N1. apply in_map_iff.
  exists (k0, l1). split; [reflexivity | apply X2].
Qed.
Lemma d_del_id d k : ~ In k (map fst d) -> d_del d k = d.
Proof.
  induction d as [| [k0 l0] d IH]; cbn [d_del filter map fst]; intros H; [reflexivity |]. destruct (path_eqb k k0) eqn:E.
  - apply path_eqb_ok in E. subst. exfalso. apply H. now left.
  - cbn [negb]. f_equal. apply IH. intros X. apply H. now right.
Qed.
Lemma d_del_nodes d k l : NoDup (map fst d) -> In (k, l) d -> Permutation (nodes_of d) (l ++ nodes_of (d_del d k)).
Proof.
  induction d as [| [k0 l0] d IH]; cbn [map fst]; intros N H; [contradiction |]. inversion N as [| ? ? N1 N2]; subst.
  unfold nodes_of. cbn [d_del filter fst]. destruct H as [E | H].
  - injection E as -> ->. rewrite path_eqb_refl. cbn [negb map snd concat]. fold (d_del d k). rewrite (d_del_id _ _ N1). apply Permutation_refl.
  - destruct (path_eqb k k0) eqn:E; cbn [negb map snd concat].
    + apply path_eqb_ok in E. subst. exfalso. apply N1. apply in_map_iff. now exists (k0, l).
    + eapply Permutation_trans; [apply Permutation_app_head, (IH N2 H) |]. rewrite !app_assoc. apply Permutation_app_tail, Permutation_app_comm.
Qed.

Record dict_ok (d : dict) : Prop := {
  dk_keys : NoDup (map fst d);
  dk_some : forall k l, In (k, l) d -> l <> [];
  dk_child : forall k l n, In (k, l) d -> In n l -> exists i, n = k ++ [i];
  dk_nodup : NoDup (nodes_of d);
  dk_apart : apart (nodes_of d);
  dk_valid : forall n, In n (nodes_of d) -> valid root n
}.

Lemma nodup_part {T} (a b : list T) : NoDup (a ++ b) -> NoDup a /\ NoDup b /\ forall x, In x a -> ~ In x b.
Proof.
  induction a as [| x a IH]; cbn [app]; intros H; [repeat split; [constructor | exact H | contradiction] |].
  inversion H as [| ? ? N1 N2]; subst. destruct (IH N2) as [I1 [I2 I3]]. rewrite in_app_iff in N1. repeat split.
  - constructor; tauto.
  - exact I2.
  - intros y [<- | Hy]; [tauto | now apply I3].
Qed.
Lemma entry_nodup d k l : dict_ok d -> In (k, l) d -> NoDup l.
Proof.
  intros D H. pose proof (dk_nodup _ D) as N. eapply Permutation_NoDup in N; [| eapply d_del_nodes; [apply D | exact H]].
  apply nodup_part in N. apply N.
Qed.
Lemma entry_kids d k l n : dict_ok d -> In (k, l) d -> In n l -> exists i, n = k ++ [i] /\ i < len k.
Proof.
  intros D H Hn. destruct (dk_child _ D _ _ _ H Hn) as [i ->]. exists i. split; [reflexivity |].
  destruct (valid_child _ _ root k i) as [lx [cs [E X]]]; [apply (dk_valid _ D), nodes_of_in; eauto |].
  rewrite (len_at _ _ _ _ _ E). exact X.
Qed.
Lemma kids_in p n : In n (kids p) <-> exists i, n = p ++ [i] /\ i < len p.
Proof.
  unfold QueryModel.kids. rewrite in_map_iff. split; intros [i [H1 H2]]; exists i.
  - apply in_seq in H2. split; [now symmetry | lia].
  - split; [now symmetry | apply in_seq; lia].
Qed.
Lemma full_entry d k l : dict_ok d -> In (k, l) d -> length l = len k ->
  (forall i, i < len k -> In (k ++ [i]) l) /\ exists lx cs, node_at root k = Some (Ctx lx cs) /\ cs <> [].
Proof.
  intros D H E. split.
  - intros i Hi. apply (NoDup_length_incl (l' := kids k) (entry_nodup _ _ _ D H)).
    + unfold QueryModel.kids. rewrite map_length, seq_length. lia.
    + intros n Hn. apply kids_in. eapply entry_kids; eassumption.
    + apply kids_in. eauto.
  - destruct l as [| n l]; [destruct (dk_some _ D _ _ H eq_refl) |].
    destruct (dk_child _ D _ _ n H (or_introl eq_refl)) as [i ->].
    destruct (valid_child _ _ root k i) as [lx [cs [E1 X]]].
    { apply (dk_valid _ D), nodes_of_in. exists k, ((k ++ [i]) :: l). split; [exact H | now left]. }
    exists lx, cs. split; [exact E1 |]. destruct cs; [cbn in X; lia | discriminate].
Qed.

Variables (l0 : L) (cs0 : list node).
Hypothesis Hroot : root = Ctx l0 cs0.

Definition same (V W : list path) : Prop :=
  pruned_list V [] 0 cs0 = pruned_list W [] 0 cs0 /\ removed_list V [] 0 cs0 = removed_list W [] 0 cs0.
Lemma same_covered V W : (forall p, covered V p = covered W p) -> same V W.
Proof. intros H. apply lists_same. intros k c _. now apply pruned_ext. Qed.
Lemma same_trans V W X : same V W -> same W X -> same V X.
Proof. intros [H1 H2] [H3 H4]. split; congruence. Qed.

Definition weight (N : list path) : nat := list_sum (map (@length nat) N).
Lemma weight_perm N M : Permutation N M -> weight N = weight M.
Proof. intros H. unfold weight. induction H; cbn [map list_sum fold_right]; unfold list_sum in *; cbn [map list_sum fold_right]; lia. Qed.
Lemma weight_app N M : weight (N ++ M) = weight N + weight M.
Proof. unfold weight. now rewrite map_app, list_sum_app. Qed.

Lemma up_one d n l : dict_ok d -> In (n, l) d -> length l = len n -> n <> [] ->
  let d' := d_append (d_del d n) (removelast n) n in
  dict_ok d' /\ same (nodes_of d) (nodes_of d') /\ weight (nodes_of d') < weight (nodes_of d) /\
  forall m l', m <> n -> In (m, l') d -> length l' = len m -> In (m, l') d'.
Proof.
  intros D H E Hn d'. destruct (full_entry _ _ _ D H E) as [F [lx [cs [Hat Hcs]]]].
  assert (Hlen : len n = length cs) by (rewrite (len_at _ _ _ _ _ Hat); reflexivity).
  pose proof (d_del_nodes d n l (dk_keys _ D) H) as P1. pose proof (d_append_nodes (d_del d n) (removelast n) n) as P2. fold d' in P2.
  assert (I1 : forall x, In x (nodes_of d) <-> In x l \/ In x (nodes_of (d_del d n))).
  { intros x. rewrite <- in_app_iff. split; apply Permutation_in; [exact P1 | now apply Permutation_sym]. }
  assert (I2 : forall x, In x (nodes_of d') <-> n = x \/ In x (nodes_of (d_del d n))).
  { intros x. change (n = x \/ In x (nodes_of (d_del d n))) with (In x (n :: nodes_of (d_del d n))).
    split; apply Permutation_in; [now apply Permutation_sym | exact P2]. }
  assert (K0 : In (n ++ [0]) (nodes_of d)) by (apply I1; left; apply F; rewrite Hlen; destruct cs; [congruence | cbn; lia]).
  assert (Nin : forall x, In x (nodes_of d) -> prefix x n -> False).
  { intros x Hx Hp. apply (dk_apart _ D x (n ++ [0]) Hx K0). eapply below_trans'; [exact Hp | apply below_snoc_self]. }
  assert (Hpar : exists p i, n = p ++ [i] /\ removelast n = p).
  { destruct n as [| i p _] using rev_ind; [congruence |]. exists p, i. rewrite removelast_last. split; reflexivity. }
  destruct Hpar as [pp [pi [Hpar1 Hpar2]]].
  assert (Dl : forall x, In x l -> exists i, x = n ++ [i] /\ i < len n) by (intros x Hx; eapply entry_kids; eassumption).
  assert (Below : forall x, In x (nodes_of (d_del d n)) -> ~ below n x).
  { intros x Hx [i [r ->]].
    assert (Hx' : In (n ++ i :: r) (nodes_of d)) by (apply I1; now right).
    assert (Hi : i < length cs).
    { apply (child_valid _ _ root n i _ _ Hat). apply (node_at_prefix _ _ root _ (n ++ i :: r)); [exists r; now rewrite <- app_assoc |].
      now apply (dk_valid _ D). }
    assert (Hi' : In (n ++ [i]) l) by (apply F; lia).
    destruct r as [| j r].
    - pose proof (Permutation_NoDup P1 (dk_nodup _ D)) as N. apply nodup_part in N. destruct N as [_ [_ N]]. exact (N _ Hi' Hx).
    - apply (dk_apart _ D (n ++ [i]) (n ++ i :: j :: r)); [apply I1; now left | exact Hx' |]. exists j, r. now rewrite <- app_assoc. }
  split; [| split; [| split]].
  - constructor.
    + apply d_append_keys, d_del_keys, D.
    + intros k l' Hk. apply d_append_in in Hk. destruct Hk as [[_ Hk] | [[_ [l1 [-> _]]] | Hk]].
      * apply d_del_in in Hk. apply (dk_some _ D k), Hk.
      * destruct l1; discriminate.
      * apply d_del_in in Hk. apply (dk_some _ D k), Hk.
    + intros k l' x Hk Hx. apply d_append_in in Hk. destruct Hk as [[_ Hk] | [[-> [l1 [-> Hl]]] | Hk]].
      * apply d_del_in in Hk. eapply (dk_child _ D); [apply Hk | exact Hx].
      * rewrite Hpar2. apply in_app_iff in Hx. destruct Hx as [Hx | [<- | []]]; [| now exists pi].
        destruct Hl as [-> | Hl]; [contradiction |]. apply d_del_in in Hl. rewrite <- Hpar2. eapply (dk_child _ D); [apply Hl | exact Hx].
      * apply d_del_in in Hk. eapply (dk_child _ D); [apply Hk | exact Hx].
    + eapply Permutation_NoDup; [exact P2 |]. constructor.
      * intros X. apply (Nin n); [apply I1; now right | apply prefix_refl].
      * pose proof (Permutation_NoDup P1 (dk_nodup _ D)) as N. apply nodup_part in N. apply N.
    + intros a b Ha Hb X. apply I2 in Ha, Hb. destruct Ha as [<- | Ha], Hb as [<- | Hb].
      * apply below_len in X. lia.
      * exact (Below _ Hb X).
      * apply (Nin a); [apply I1; now right |]. apply below_prefix in X. apply X.
      * apply (dk_apart _ D a b); [apply I1; now right | apply I1; now right | exact X].
    + intros x Hx. apply I2 in Hx. destruct Hx as [<- | Hx]; [unfold valid; congruence |]. apply (dk_valid _ D), I1. now right.
  - eapply up_step_root; try eassumption.
    + intros i Hi. apply covered_ok. exists (n ++ [i]). split; [apply I1; left; apply F; lia | apply prefix_refl].
    + intros q. apply bool_iff. rewrite orb_true_iff, !covered_ok, prefixb_ok. split.
      * intros [x [Hx Hp]]. apply I2 in Hx. destruct Hx as [<- | Hx]; [now right | left]. exists x. split; [apply I1; now right | exact Hp].
      * intros [[x [Hx Hp]] | Hp]; [| exists n; split; [apply I2; now left | exact Hp]].
        apply I1 in Hx. destruct Hx as [Hx | Hx]; [| exists x; split; [apply I2; now right | exact Hp]].
        exists n. split; [apply I2; now left |]. destruct (Dl _ Hx) as [i [-> _]]. eapply prefix_trans; [apply prefix_snoc_self | exact Hp].
  - rewrite (weight_perm _ _ P1), <- (weight_perm _ _ P2), weight_app. unfold weight. cbn [map list_sum fold_right].
    enough (X : length n < list_sum (map (@length nat) l)) by (unfold list_sum in *; lia).
    destruct l as [| x l]; [destruct (dk_some _ D _ _ H eq_refl) |]. destruct (Dl x (or_introl eq_refl)) as [i [-> _]].
    cbn [map list_sum fold_right]. rewrite app_length. cbn [length]. lia.
  - intros m l' Hm Hin Hfull. apply d_append_other; [| now apply d_del_in].
    rewrite Hpar2. intros ->. destruct (full_entry _ _ _ D Hin Hfull) as [F' [lx' [cs' [Hat' Hcs']]]].
    destruct (valid_child _ _ root pp pi) as [l2 [cs2 [E2 X2]]]; [rewrite <- Hpar1; unfold valid; congruence |].
    apply (Nin n); [| apply prefix_refl]. apply nodes_of_in. exists pp, l'. split; [exact Hin |]. rewrite Hpar1. apply F'.
    rewrite (len_at _ _ _ _ _ E2). exact X2.
Qed.

Lemma emptied_in d n : In n (emptied root d) <-> exists l, In (n, l) d /\ length l = len n /\ n <> [].
Proof.
  unfold emptied. rewrite in_map_iff. split.
  - intros [[k l] [<- H]]. apply filter_In in H. destruct H as [H1 H2]. cbn [fst snd] in *. apply andb_true_iff in H2. destruct H2 as [H2 H3].
    exists l. repeat split; [exact H1 | lia | now destruct k].
  - intros [l [H1 [H2 H3]]]. exists (n, l). split; [reflexivity |]. apply filter_In. split; [exact H1 |]. cbn [fst snd].
    rewrite H2, Nat.eqb_refl. now destruct n.
Qed.
Lemma emptied_nodup d : NoDup (map fst d) -> NoDup (emptied root d).
Proof.
  unfold emptied. induction d as [| [k l] d IH]; cbn [filter map fst snd]; intros H; [constructor |]. inversion H as [| ? ? N1 N2]; subst.
  destruct (_ && _); [| now apply IH]. cbn [map fst]. constructor; [| now apply IH]. intros X. apply N1.
  apply in_map_iff in X. destruct X as [[k' l'] [<- X]]. apply filter_In in X. apply in_map_iff. exists (k', l'). split; [reflexivity | apply X].
Qed.
Lemma up_all : forall remove d, dict_ok d -> NoDup remove ->
  (forall n, In n remove -> exists l, In (n, l) d /\ length l = len n /\ n <> []) ->
  dict_ok (move_up d remove) /\ same (nodes_of d) (nodes_of (move_up d remove)) /\
  weight (nodes_of (move_up d remove)) + length remove <= weight (nodes_of d).
Proof.
  induction remove as [| n remove IH]; intros d D N H.
  - cbn [move_up fold_left length]. split; [exact D |]. split; [split; reflexivity | lia].
  - inversion N as [| ? ? N1 N2]; subst. destruct (H n (or_introl eq_refl)) as [l [H1 [H2 H3]]].
    destruct (up_one d n l D H1 H2 H3) as [D' [S' [W' K']]]. cbn [move_up fold_left]. fold (move_up (d_append (d_del d n) (removelast n) n) remove).
    destruct (IH _ D' N2) as [I1 [I2 I3]].
    + intros m Hm. destruct (H m (or_intror Hm)) as [l' [M1 [M2 M3]]]. exists l'. repeat split; [| exact M2 | exact M3]. apply K'; [congruence | exact M1 | exact M2].
    + split; [exact I1 |]. split; [eapply same_trans; eassumption |]. cbn [length]. lia.
Qed.
Lemma up_loop : forall fuel d, dict_ok d -> weight (nodes_of d) < fuel ->
  exists d', move_loop root fuel d = Some d' /\ dict_ok d' /\ same (nodes_of d) (nodes_of d') /\ emptied root d' = [].
Proof.
  induction fuel as [| fuel IH]; intros d D W; [lia |]. cbn [move_loop]. destruct (emptied root d) as [| n remove] eqn:E.
  - exists d. split; [reflexivity |]. split; [exact D |]. split; [split; reflexivity | exact E].
  - rewrite <- E. destruct (up_all (emptied root d) d D (emptied_nodup _ (dk_keys _ D)) (fun n => proj1 (emptied_in d n))) as [I1 [I2 I3]].
    destruct (IH _ I1) as [d' [J1 [J2 [J3 J4]]]]; [rewrite E in *; cbn [length] in I3; lia |].
    exists d'. repeat (split; [assumption |]). split; [eapply same_trans; eassumption | exact J4].
Qed.

(** The dict at the start. *)
Lemma start_dict : forall N d, dict_ok d -> NoDup (N ++ nodes_of d) -> apart (N ++ nodes_of d) -> (forall n, In n N -> valid root n /\ n <> []) ->
  let d' := fold_left (fun d n => match n with [] => d | _ => d_append d (removelast n) n end) N d in
  dict_ok d' /\ Permutation (N ++ nodes_of d) (nodes_of d').
Proof.
  induction N as [| n N IH]; intros d D Nd Ap V; [split; [exact D | apply Permutation_refl] |]. cbn [fold_left].
  destruct (V n (or_introl eq_refl)) as [V1 V2].
  replace (match n with [] => d | _ => d_append d (removelast n) n end) with (d_append d (removelast n) n) by (destruct n; [congruence | reflexivity]).
  pose proof (d_append_nodes d (removelast n) n) as P.
  assert (Hpar : exists p i, n = p ++ [i] /\ removelast n = p).
  { destruct n as [| i p _] using rev_ind; [congruence |]. exists p, i. rewrite removelast_last. split; reflexivity. }
  destruct Hpar as [pp [pi [Hpar1 Hpar2]]].
  assert (P' : Permutation ((n :: N) ++ nodes_of d) (N ++ nodes_of (d_append d (removelast n) n))).
  { cbn [app]. eapply Permutation_trans; [apply Permutation_middle |]. now apply Permutation_app_head. }
  assert (Inn : forall x, In x (nodes_of (d_append d (removelast n) n)) -> In x ((n :: N) ++ nodes_of d)).
  { intros x Hx. eapply Permutation_in; [apply Permutation_sym; exact P' |]. apply in_or_app. now right. }
  destruct (IH (d_append d (removelast n) n)) as [I1 I2].
  - constructor.
    + apply d_append_keys, D.
    + intros k l' Hk. apply d_append_in in Hk. destruct Hk as [[_ Hk] | [[_ [l1 [-> _]]] | Hk]].
      * apply (dk_some _ D k), Hk.
      * destruct l1; discriminate.
      * apply (dk_some _ D k), Hk.
    + intros k l' x Hk Hx. apply d_append_in in Hk. destruct Hk as [[_ Hk] | [[-> [l1 [-> Hl]]] | Hk]].
      * eapply (dk_child _ D); [apply Hk | exact Hx].
      * rewrite Hpar2. apply in_app_iff in Hx. destruct Hx as [Hx | [<- | []]]; [| now exists pi].
        destruct Hl as [-> | Hl]; [contradiction |]. rewrite <- Hpar2. eapply (dk_child _ D); [apply Hl | exact Hx].
      * eapply (dk_child _ D); [apply Hk | exact Hx].
    + eapply Permutation_NoDup in Nd; [| exact P']. apply nodup_part in Nd. apply Nd.
    + intros a b Ha Hb. apply Ap; now apply Inn.
    + intros x Hx. apply (Permutation_in _ (Permutation_sym P)) in Hx. destruct Hx as [<- | Hx]; [exact V1 | now apply (dk_valid _ D)].
  - eapply Permutation_NoDup; eassumption.
  - intros a b Ha Hb. apply Ap; (eapply Permutation_in; [apply Permutation_sym; exact P' | assumption]).
  - intros x Hx. apply V. now right.
  - split; [exact I1 |]. eapply Permutation_trans; eassumption.
Qed.

(** At the end no context loses all children. *)
Definition some_stay (N : list path) : Prop := forall p l cs, p <> [] -> node_at root p = Some (Ctx l cs) -> cs <> [] ->
  exists i, i < length cs /\ ~ In (p ++ [i]) N.
Lemma end_some_stay d : dict_ok d -> emptied root d = [] -> some_stay (nodes_of d).
Proof.
  intros D E p l cs Hp Hat Hcs. pose proof (len_at _ _ _ _ _ Hat) as Hlen. cbn [children] in Hlen.
  destruct (forallb (fun i => mem (p ++ [i]) (nodes_of d)) (seq 0 (length cs))) eqn:X.
  - exfalso. rewrite forallb_forall in X.
    assert (Y : forall i, i < length cs -> In (p ++ [i]) (nodes_of d)) by (intros i Hi; apply mem_ok, X, in_seq; lia).
    assert (Z : forall i, i < length cs -> exists l, In (p, l) d /\ In (p ++ [i]) l).
    { intros i Hi. specialize (Y i Hi). apply nodes_of_in in Y. destruct Y as [k [l1 [Y1 Y2]]].
      destruct (dk_child _ D _ _ _ Y1 Y2) as [j Ej]. apply snoc_inj in Ej. destruct Ej as [<- _]. eauto. }
    destruct (Z 0) as [l1 [Z1 Z2]]; [destruct cs; [congruence | cbn; lia] |].
    assert (I1 : incl (kids p) l1).
    { intros n Hn. apply kids_in in Hn. destruct Hn as [i [-> Hi]]. destruct (Z i) as [l2 [Z3 Z4]]; [lia |].
      now rewrite (key_unique _ _ _ _ (dk_keys _ D) Z1 Z3). }
    assert (I2 : incl l1 (kids p)) by (intros n Hn; apply kids_in; eapply entry_kids; eassumption).
    assert (Nk : NoDup (kids p)).
    { unfold QueryModel.kids. apply FinFun.Injective_map_NoDup; [| apply seq_NoDup]. intros i j Hij. apply snoc_inj in Hij. apply Hij. }
    apply (NoDup_incl_length Nk) in I1. apply (NoDup_incl_length (entry_nodup _ _ _ D Z1)) in I2.
    assert (Q : In p (emptied root d)).
    { apply emptied_in. exists l1. repeat split; [exact Z1 | | exact Hp]. unfold QueryModel.kids in *. rewrite map_length, seq_length in *. lia. }
    rewrite E in Q. contradiction.
  - assert (Y : existsb (fun i => negb (mem (p ++ [i]) (nodes_of d))) (seq 0 (length cs)) = true).
    { destruct (existsb _ _) eqn:Q; [reflexivity |]. enough (forallb (fun i => mem (p ++ [i]) (nodes_of d)) (seq 0 (length cs)) = true) by congruence.
      apply forallb_forall. intros i Hi. destruct (mem (p ++ [i]) (nodes_of d)) eqn:R; [reflexivity |].
      enough (existsb (fun i => negb (mem (p ++ [i]) (nodes_of d))) (seq 0 (length cs)) = true) by congruence.
      apply existsb_exists. exists i. split; [exact Hi | now rewrite R]. }
    apply existsb_exists in Y. destruct Y as [i [Y1 Y2]]. apply in_seq in Y1. exists i. split; [lia |]. apply mem_no. now apply negb_true_iff.
Qed.

(** * The tree at the end *)

Fixpoint shown_list (gone : list path) (p : path) (i : nat) (cs : list node) : list node :=
  match cs with
  | [] => []
  | c :: cs => if mem (p ++ [i]) gone then shown_list gone p (S i) cs else shown gone (p ++ [i]) c :: shown_list gone p (S i) cs
  end.
Lemma shown_ctx gone p l cs : shown gone p (Ctx l cs) = Ctx l (shown_list gone p 0 cs).
Proof. cbn [shown]. f_equal. generalize 0. induction cs as [| c cs IH]; intros i; [reflexivity |]. cbn [shown_list]. now rewrite IH. Qed.
Lemma shown_same gone gone' : (forall x, In x gone <-> In x gone') -> forall (n : node) p, shown gone p n = shown gone' p n.
Proof.
  intros H n. induction n as [t | l cs IH] using node_ind'; intros p; [reflexivity |]. rewrite !shown_ctx. f_equal. generalize 0.
  induction IH as [| c cs Hc _ IHc]; intros i; [reflexivity |]. cbn [shown_list]. now rewrite (mem_same _ _ _ H), Hc, IHc.
Qed.

Lemma pruned_shown_list N p : forall cs i,
  (forall k c, nth_error cs k = Some c -> pruned N (p ++ [i + k]) c = if mem (p ++ [i + k]) N then None else Some (shown N (p ++ [i + k]) c)) ->
  pruned_list N p i cs = shown_list N p i cs.
Proof.
  induction cs as [| c cs IH]; intros i H; [reflexivity |]. cbn [pruned_list shown_list].
  pose proof (H 0 c eq_refl) as H0. rewrite Nat.add_0_r in H0. rewrite H0.
  assert (X : pruned_list N p (S i) cs = shown_list N p (S i) cs).
  { apply IH. intros k d Hk. specialize (H (S k) d Hk). now rewrite <- plus_n_Sm in H. }
  destruct (mem (p ++ [i]) N); now rewrite X.
Qed.
Lemma shown_list_some gone p i0 : forall cs i, i <= i0 < i + length cs -> ~ In (p ++ [i0]) gone -> shown_list gone p i cs <> [].
Proof.
  induction cs as [| c cs IH]; intros i H N; cbn [length] in H; [lia |]. cbn [shown_list]. destruct (mem (p ++ [i]) gone) eqn:E; [| discriminate].
  apply IH; [| exact N]. apply mem_ok in E. assert (i <> i0) by (intros ->; contradiction). lia.
Qed.
Lemma covered_snoc N p i : covered N p = false -> covered N (p ++ [i]) = mem (p ++ [i]) N.
Proof.
  intros H. apply bool_iff. rewrite covered_ok, mem_ok. split.
  - intros [s [H1 H2]]. apply prefix_snoc in H2. destruct H2 as [H2 | ->]; [| exact H1]. rewrite covered_no in H. destruct (H s H1 H2).
  - intros Hin. exists (p ++ [i]). split; [exact Hin | apply prefix_refl].
Qed.
Lemma pruned_shown N : some_stay N -> forall n p, node_at root p = Some n -> covered N p = false -> p <> [] ->
  pruned N p n = Some (shown N p n).
Proof.
  intros Hs n. induction n as [t | l cs IH] using node_ind'; intros p Hp Hc Hn.
  - now rewrite pruned_tok, Hc.
  - rewrite pruned_ctx, Hc, shown_ctx, (pruned_shown_list N p cs 0).
    + destruct cs as [| c cs]; [reflexivity |]. destruct (Hs p l (c :: cs) Hn Hp) as [i [Hi1 Hi2]]; [discriminate |].
      destruct (shown_list N p 0 (c :: cs)) eqn:E; [| reflexivity].
      exfalso. revert E. apply (shown_list_some N p i); [lia | exact Hi2].
    + intros k c Hk. cbn [plus]. pose proof (covered_snoc N p k Hc) as E. destruct (mem (p ++ [k]) N).
      * now apply pruned_covered.
      * rewrite Forall_forall in IH. apply IH; [eapply nth_error_In, Hk | now rewrite (node_at_snoc _ _ _ _ _ _ Hp) | exact E | now destruct p].
Qed.
Lemma deleted_shown N : some_stay N -> covered N [] = false -> deleted_tree N root = shown N [] root.
Proof.
  intros Hs Hc. rewrite Hroot. cbn [deleted_tree]. rewrite shown_ctx. f_equal. apply pruned_shown_list. intros k c Hk. cbn [plus app].
  pose proof (covered_snoc N [] k Hc) as E. cbn [app] in E. destruct (mem [k] N).
  - now apply pruned_covered.
  - apply pruned_shown; [exact Hs | | exact E | discriminate]. rewrite Hroot. cbn. now rewrite Hk.
Qed.

(** ** Counting *)

Definition below_count (N : list path) (p : path) : nat := length (filter (prefixb p) N).

Lemma filter_none {T} (f : T -> bool) l : (forall x, In x l -> f x = false) -> filter f l = [].
Proof.
  induction l as [| x l IH]; intros H; [reflexivity |]. cbn [filter]. rewrite (H x (or_introl eq_refl)). apply IH. intros y Hy. apply H. now right.
Qed.
Lemma count_self N p : NoDup N -> apart N -> In p N -> below_count N p = 1.
Proof.
  intros Nd Ap Hp. unfold below_count. apply in_split in Hp. destruct Hp as [a [b ->]].
  assert (X : forall x, In x a \/ In x b -> prefixb p x = false).
  { intros x Hx. apply not_true_iff_false. rewrite prefixb_ok. intros Q. apply prefix_below in Q. destruct Q as [<- | Q].
    - apply NoDup_remove_2 in Nd. apply Nd, in_or_app, Hx.
    - apply (Ap p x); [apply in_elt | | exact Q]. apply in_or_app. destruct Hx; [now left | right; now right]. }
  rewrite filter_app. cbn [filter]. replace (prefixb p p) with true by (symmetry; apply prefixb_ok, prefix_refl).
  rewrite !filter_none; [reflexivity | |]; intros x Hx; apply X; auto.
Qed.
Lemma sum_at k : forall i j, (j <= i < j + k -> list_sum (map (fun x => if x =? i then 1 else 0) (seq j k)) = 1) /\
  (~ j <= i < j + k -> list_sum (map (fun x => if x =? i then 1 else 0) (seq j k)) = 0).
Proof.
  induction k as [| k IH]; intros i j; cbn [seq map list_sum fold_right]; [split; [lia | reflexivity] |].
  destruct (IH i (S j)) as [I1 I2]. unfold list_sum in *. destruct (j =? i) eqn:E.
  - split; [intros _; rewrite I2; lia | lia].
  - split; intros H; [rewrite I1; lia | rewrite I2; lia].
Qed.
Lemma sum_zero (ks : list nat) : list_sum (map (fun _ => 0) ks) = 0.
Proof. induction ks as [| k ks IH]; [reflexivity | exact IH]. Qed.
Lemma count_children N p l cs : node_at root p = Some (Ctx l cs) -> (forall x, In x N -> valid root x) -> ~ In p N ->
  below_count N p = list_sum (map (fun i => below_count N (p ++ [i])) (seq 0 (length cs))).
Proof.
  intros Hp V Hn. unfold below_count. induction N as [| x N IH].
  - cbn [filter length]. symmetry. apply sum_zero.
  - assert (IH' : length (filter (prefixb p) N) = list_sum (map (fun i => length (filter (prefixb (p ++ [i])) N)) (seq 0 (length cs)))).
    { apply IH; [intros y Hy; apply V; now right | intros Q; apply Hn; now right]. }
    clear IH. cbn [filter].
    assert (X : forall ks, list_sum (map (fun i => length (if prefixb (p ++ [i]) x then x :: filter (prefixb (p ++ [i])) N else filter (prefixb (p ++ [i])) N)) ks)
      = list_sum (map (fun i => if prefixb (p ++ [i]) x then 1 else 0) ks) + list_sum (map (fun i => length (filter (prefixb (p ++ [i])) N)) ks)).
    { induction ks as [| k ks IHk]; [reflexivity |]. cbn [map list_sum fold_right]. unfold list_sum in *. rewrite IHk. destruct (prefixb (p ++ [k]) x); cbn [length]; lia. }
    rewrite X, <- IH'. destruct (prefixb p x) eqn:E.
    + apply prefixb_ok, prefix_below in E. destruct E as [-> | [i [r ->]]]; [destruct Hn; now left |].
      assert (Hi : i < length cs).
      { apply (child_valid _ _ root p i _ _ Hp). apply (node_at_prefix _ _ root _ (p ++ i :: r)); [exists r; now rewrite <- app_assoc |].
        apply V. now left. }
      rewrite (map_ext _ (fun x => if x =? i then 1 else 0)).
      * destruct (sum_at (length cs) i 0) as [-> _]; [cbn [length]; lia | lia].
      * intros k. destruct (k =? i) eqn:Ek.
        -- replace k with i by lia. replace (prefixb (p ++ [i]) (p ++ i :: r)) with true; [reflexivity |].
           symmetry. apply prefixb_ok. exists r. now rewrite <- app_assoc.
        -- destruct (prefixb (p ++ [k]) (p ++ i :: r)) eqn:Q; [| reflexivity]. apply prefixb_ok in Q. destruct Q as [s Q].
           rewrite <- app_assoc in Q. apply app_inv_head in Q. cbn in Q. injection Q as Q _. lia.
    + rewrite (map_ext _ (fun _ => 0)).
      * rewrite sum_zero. reflexivity.
      * intros k. destruct (prefixb (p ++ [k]) x) eqn:Q; [| reflexivity]. exfalso.
        enough (prefixb p x = true) by congruence. apply prefixb_ok. apply prefixb_ok in Q. eapply prefix_trans; [apply prefix_snoc_self | exact Q].
Qed.
Lemma removed_list_sum N p : forall (cs : list node) i,
  (forall k c, nth_error cs k = Some c -> removed N (p ++ [i + k]) c = below_count N (p ++ [i + k])) ->
  removed_list N p i cs = list_sum (map (fun i => below_count N (p ++ [i])) (seq i (length cs))).
Proof.
  induction cs as [| c cs IH]; intros i H; [reflexivity |]. cbn [removed_list length seq map list_sum fold_right].
  pose proof (H 0 c eq_refl) as H0. rewrite Nat.add_0_r in H0. rewrite H0. f_equal. apply IH.
  intros k d Hk. specialize (H (S k) d Hk). now rewrite <- plus_n_Sm in H.
Qed.
Lemma removed_count N : some_stay N -> NoDup N -> apart N -> (forall x, In x N -> valid root x) ->
  forall n p, node_at root p = Some n -> (forall s, In s N -> ~ below s p) -> p <> [] -> removed N p n = below_count N p.
Proof.
  intros Hs Nd Ap V n. induction n as [t | l cs IH] using node_ind'; intros p Hp Hb Hn.
  - destruct (covered N p) eqn:E.
    + rewrite removed_none by (now apply pruned_covered). apply covered_ok in E. destruct E as [s [E1 E2]]. apply prefix_below in E2.
      destruct E2 as [-> | E2]; [now rewrite count_self | destruct (Hb s E1 E2)].
    + cbn [removed]. rewrite pruned_tok, E. unfold below_count. rewrite filter_none; [reflexivity |]. intros x Hx.
      apply not_true_iff_false. rewrite prefixb_ok. intros Q. apply prefix_below in Q. rewrite covered_no in E. destruct Q as [-> | [i [r ->]]].
      * apply (E x Hx), prefix_refl.
      * apply V in Hx. unfold valid in Hx. rewrite node_at_app, Hp in Hx. cbn in Hx. destruct i; now apply Hx.
  - destruct (covered N p) eqn:E.
    + rewrite removed_none by (now apply pruned_covered). apply covered_ok in E. destruct E as [s [E1 E2]]. apply prefix_below in E2.
      destruct E2 as [-> | E2]; [now rewrite count_self | destruct (Hb s E1 E2)].
    + rewrite removed_ctx, (pruned_shown N Hs _ p Hp E Hn), (removed_list_sum N p cs 0).
      * symmetry. eapply count_children; [exact Hp | exact V |]. intros Q. rewrite covered_no in E. apply (E p Q), prefix_refl.
      * intros k c Hk. cbn [plus]. rewrite Forall_forall in IH. apply IH; [eapply nth_error_In, Hk | now rewrite (node_at_snoc _ _ _ _ _ _ Hp) | | now destruct p].
        intros s Hs1 Hs2. apply below_prefix in Hs2. destruct Hs2 as [Hs2 Hs3]. apply prefix_snoc in Hs2. destruct Hs2 as [Hs2 | Hs2]; [| congruence].
        rewrite covered_no in E. exact (E s Hs1 Hs2).
Qed.
Lemma removed_all N : some_stay N -> NoDup N -> apart N -> (forall x, In x N -> valid root x) -> ~ In [] N ->
  removed_list N [] 0 cs0 = length N.
Proof.
  intros Hs Nd Ap V H0. rewrite (removed_list_sum N [] cs0 0).
  - rewrite <- (count_children N [] l0 cs0); [| now rewrite Hroot | exact V | exact H0]. unfold below_count.
    f_equal. clear. induction N as [| x N IH]; [reflexivity |]. change (filter (prefixb []) (x :: N)) with (x :: filter (prefixb []) N). now rewrite IH.
  - intros k c Hk. cbn [plus app]. apply removed_count; try assumption; [| | discriminate].
    + rewrite Hroot. cbn. now rewrite Hk.
    + intros s Hs1 [i [r E]]. destruct s as [| j s]; [contradiction |]. cbn in E. injection E as _ E. now destruct s.
Qed.

(** ** What is left stays well formed *)

Inductive sub {T} : list T -> list T -> Prop :=
| sub_nil : sub [] []
| sub_keep x a b : sub a b -> sub (x :: a) (x :: b)
| sub_skip x a b : sub a b -> sub a (x :: b).
Lemma sub_refl {T} (a : list T) : sub a a.
Proof. induction a; constructor; assumption. Qed.
Lemma sub_none {T} (a : list T) : sub [] a.
Proof. induction a; constructor; assumption. Qed.
Lemma sub_app {T} (a b c d : list T) : sub a b -> sub c d -> sub (a ++ c) (b ++ d).
Proof. intros H1 H2. induction H1; cbn [app]; [exact H2 | constructor; assumption | constructor; assumption]. Qed.
Lemma sub_in {T} (a b : list T) x : sub a b -> In x a -> In x b.
Proof. intros H. induction H as [| y a b H IH | y a b H IH]; [auto | intros [E | E]; [now left | right; auto] | right; auto]. Qed.
Lemma sub_order (a b : list (tok A)) : sub a b -> in_order b -> in_order a.
Proof.
  intros H [H1 H2]. split.
  - induction H as [| x a b H IH | x a b H IH]; [constructor | |]; inversion H1 as [| ? ? S1 S2]; inversion H2 as [| ? ? F1 F2]; subst.
    + constructor; [now apply IH |]. apply Forall_forall. intros y Hy. rewrite Forall_forall in S2. apply S2. eapply sub_in; eassumption.
    + now apply IH.
  - rewrite Forall_forall in *. intros x Hx. apply H2. eapply sub_in; eassumption.
Qed.
Lemma shown_sub gone : forall (n : node) p, sub (flatten (shown gone p n)) (flatten n).
Proof.
  intros n. induction n as [t | l cs IH] using node_ind'; intros p; [apply sub_refl |]. rewrite shown_ctx, !flatten_ctx. generalize 0.
  induction IH as [| c cs Hc _ IHc]; intros i; [constructor |]. cbn [shown_list]. rewrite (flat_cons _ _ c cs). destruct (mem (p ++ [i]) gone).
  - apply (sub_app [] _ _ _ (sub_none _)). apply IHc.
  - rewrite flat_cons. apply sub_app; [apply Hc | apply IHc].
Qed.
Lemma shown_full gone : some_stay gone -> forall n p, node_at root p = Some n -> full n -> p <> [] -> full (shown gone p n).
Proof.
  intros Hs n. induction n as [t | l cs IH] using node_ind'; intros p Hp Hf Hn; [constructor |]. rewrite shown_ctx.
  apply full_children in Hf. destruct Hf as [F1 F2]. constructor.
  - destruct (Hs p l cs Hn Hp F1) as [i [Hi1 Hi2]]. apply (shown_list_some gone p i); [lia | exact Hi2].
  - assert (X : forall k c, nth_error cs k = Some c -> full (shown gone (p ++ [0 + k]) c)).
    { intros k c Hk. rewrite Forall_forall in IH, F2. apply IH; [eapply nth_error_In, Hk | now rewrite (node_at_snoc _ _ _ _ _ _ Hp) | apply F2; eapply nth_error_In, Hk | now destruct p]. }
    clear - X. revert X. generalize 0. induction cs as [| c cs IH]; intros i X; [constructor |]. cbn [shown_list].
    assert (Y : Forall full (shown_list gone p (S i) cs)).
    { apply IH. intros k d Hk. specialize (X (S k) d Hk). now rewrite <- plus_n_Sm in X. }
    destruct (mem (p ++ [i]) gone); [exact Y |]. constructor; [| exact Y]. specialize (X 0 c eq_refl). now rewrite Nat.add_0_r in X.
Qed.

Hypothesis Hwf : wf_children cs0.

Lemma wf_node p l cs : node_at root p = Some (Ctx l cs) -> wf_children cs.
Proof. intros H. eapply wf_at; [| exact H]. rewrite Hroot. exact Hwf. Qed.

Lemma nodes_now_ok gone p l cs : some_stay gone -> node_at root p = Some (Ctx l cs) -> (forall i, ~ In (p ++ [i]) gone) ->
  wf_children (nodes_now root gone p) /\ length (nodes_now root gone p) = length cs.
Proof.
  intros Hs Hp Hg. unfold nodes_now, QueryModel.at_. rewrite Hp, shown_ctx. cbn [children]. pose proof (wf_node _ _ _ Hp) as [W1 W2]. split; [split |].
  - assert (X : forall k c, nth_error cs k = Some c -> full (shown gone (p ++ [0 + k]) c)).
    { intros k c Hk. apply shown_full; [exact Hs | now rewrite (node_at_snoc _ _ _ _ _ _ Hp) | | now destruct p].
      rewrite Forall_forall in W1. apply W1. eapply nth_error_In, Hk. }
    clear - X. revert X. generalize 0. induction cs as [| c cs IH]; intros i X; [constructor |]. cbn [shown_list].
    assert (Y : Forall full (shown_list gone p (S i) cs)).
    { apply IH. intros k d Hk. specialize (X (S k) d Hk). now rewrite <- plus_n_Sm in X. }
    destruct (mem (p ++ [i]) gone); [exact Y |]. constructor; [| exact Y]. specialize (X 0 c eq_refl). now rewrite Nat.add_0_r in X.
  - eapply sub_order; [| exact W2]. pose proof (shown_sub gone (Ctx l cs) p) as S1. rewrite shown_ctx, !flatten_ctx in S1. exact S1.
  - clear - Hg. generalize 0. induction cs as [| c cs IH]; intros i; [reflexivity |]. cbn [shown_list].
    replace (mem (p ++ [i]) gone) with false by (symmetry; apply mem_no, Hg). cbn [length]. now rewrite IH.
Qed.

(** ** Slices *)

Lemma kids_now_all gone p : (forall i, ~ In (p ++ [i]) gone) -> kids_now root gone p = kids p.
Proof.
  intros H. unfold kids_now, QueryModel.kids. induction (seq 0 (len p)) as [| i l IH]; [reflexivity |]. cbn [map filter].
  replace (mem (p ++ [i]) gone) with false by (symmetry; apply mem_no, H). cbn [negb]. now rewrite IH.
Qed.
Lemma find_id_ok p i k : forall a, a <= i < a + k -> find_id (p ++ [i]) (map (fun i => p ++ [i]) (seq a k)) = Some (i - a).
Proof.
  induction k as [| k IH]; intros a H; [lia |]. cbn [seq map find_id]. destruct (path_eqb (p ++ [i]) (p ++ [a])) eqn:E.
  - apply path_eqb_ok, snoc_inj in E. destruct E as [_ ->]. now rewrite Nat.sub_diag.
  - apply path_eqb_no in E. assert (i <> a) by congruence. rewrite IH by lia. f_equal. lia.
Qed.
Lemma index_now_ok gone p l cs i : some_stay gone -> node_at root p = Some (Ctx l cs) -> (forall i, ~ In (p ++ [i]) gone) -> i < length cs ->
  index_now root gone p (p ++ [i]) = Some i.
Proof.
  intros Hs Hp Hg Hi. unfold index_now. rewrite (kids_now_all _ _ Hg). unfold QueryModel.kids. rewrite find_id_ok.
  - rewrite Nat.sub_0_r. destruct (nodes_now_ok _ _ _ _ Hs Hp Hg) as [W1 W2]. apply parent_index_ok; [exact W1 | lia].
  - rewrite (len_at _ _ _ _ _ Hp). cbn [children]. lia.
Qed.
Lemma nth_kids p i : i < len p -> nth_error (kids p) i = Some (p ++ [i]).
Proof.
  intros H. unfold QueryModel.kids. rewrite nth_error_map. rewrite (nth_error_nth' _ 0) by (rewrite seq_length; lia). cbn [option_map].
  now rewrite seq_nth.
Qed.

(** The slices are disjoint, the last one first. *)
Fixpoint slices_below (k : nat) (sl : list (nat * nat)) : Prop :=
  match sl with
  | [] => True
  | (a, b) :: sl => a < b /\ b <= k /\ slices_below a sl
  end.
Definition in_slices (sl : list (nat * nat)) (x : nat) : Prop := exists a b, In (a, b) sl /\ a <= x < b.

Lemma slices_loop_ok gone p l cs : some_stay gone -> node_at root p = Some (Ctx l cs) -> (forall i, ~ In (p ++ [i]) gone) ->
  forall is i a rest, StronglySorted lt (i :: is) -> (forall x, In x (i :: is) -> x < length cs) -> slices_below (length cs) ((a, S i) :: rest) ->
  exists sl, slices_loop root gone p ((a, S i) :: rest) i (map (fun i => p ++ [i]) is) = Some sl /\ slices_below (length cs) sl /\
    forall x, in_slices sl x <-> in_slices ((a, S i) :: rest) x \/ In x is.
Proof.
  intros Hs Hp Hg. pose proof (len_at _ _ _ _ _ Hp) as Hlen. cbn [children] in Hlen.
  induction is as [| j is IH]; intros i a rest Hsort Hlt Hsl.
  - exists ((a, S i) :: rest). split; [reflexivity |]. split; [exact Hsl |]. intros x. cbn [In]. tauto.
  - inversion Hsort as [| ? ? S1 S2]; subst. pose proof (Forall_inv S2) as Hij. cbv beta in Hij.
    pose proof (Hlt j (or_intror (or_introl eq_refl))) as Hj.
    cbn [map slices_loop]. rewrite (kids_now_all _ _ Hg), nth_kids by lia. replace (i + 1) with (S i) by lia.
    destruct Hsl as [L1 [L2 L3]].
    destruct (path_eqb (p ++ [j]) (p ++ [S i])) eqn:E.
    + apply path_eqb_ok, snoc_inj in E. destruct E as [_ ->]. replace (S i + 1) with (S (S i)) by lia.
      destruct (IH (S i) a rest) as [sl [I1 [I2 I3]]].
      * exact S1.
      * intros x Hx. apply Hlt. now right.
      * cbn [slices_below]. repeat split; [lia | lia | exact L3].
      * exists sl. split; [exact I1 |]. split; [exact I2 |]. intros x. rewrite I3. unfold in_slices. cbn [In]. split.
        -- intros [[u [v [[Q | Q] R]]] | Q].
           ++ injection Q as <- <-. destruct (Nat.eq_dec x (S i)) as [-> | Hx]; [right; now left |]. left. exists a, (S i). split; [now left | lia].
           ++ left. exists u, v. split; [now right | exact R].
           ++ right. now right.
        -- intros [[u [v [[Q | Q] R]]] | [<- | Q]].
           ++ injection Q as <- <-. left. exists a, (S (S i)). split; [now left | lia].
           ++ left. exists u, v. split; [now right | exact R].
           ++ left. exists a, (S (S i)). split; [now left | lia].
           ++ now right.
    + rewrite (index_now_ok _ _ _ _ _ Hs Hp Hg Hj). replace (j + 1) with (S j) by lia.
      destruct (IH j j ((a, S i) :: rest)) as [sl [I1 [I2 I3]]].
      * exact S1.
      * intros x Hx. apply Hlt. now right.
      * cbn [slices_below]. repeat split; [lia | lia | lia | lia | exact L3].
      * exists sl. split; [exact I1 |]. split; [exact I2 |]. intros x. rewrite I3. unfold in_slices. cbn [In]. split.
        -- intros [[u [v [[Q | Q] R]]] | Q].
           ++ injection Q as <- <-. right. left. lia.
           ++ left. eauto.
           ++ right. now right.
        -- intros [[u [v [Q R]]] | [<- | Q]].
           ++ left. exists u, v. split; [now right | exact R].
           ++ left. exists j, (S j). split; [now left | lia].
           ++ now right.
Qed.
Lemma slices_of_ok gone p l cs is : some_stay gone -> node_at root p = Some (Ctx l cs) -> (forall i, ~ In (p ++ [i]) gone) ->
  is <> [] -> StronglySorted lt is -> (forall x, In x is -> x < length cs) ->
  exists sl, slices_of root gone p (map (fun i => p ++ [i]) is) = Some sl /\ slices_below (length cs) sl /\ forall x, in_slices sl x <-> In x is.
Proof.
  intros Hs Hp Hg Hne Hsort Hlt. destruct is as [| i is]; [congruence |]. pose proof (Hlt i (or_introl eq_refl)) as Hi.
  pose proof (len_at _ _ _ _ _ Hp) as Hlen. cbn [children] in Hlen.
  cbn [map slices_of]. rewrite (kids_now_all _ _ Hg), nth_kids by lia.
  assert (E : (if path_eqb (p ++ [i]) (p ++ [0]) then Some 0 else index_now root gone p (p ++ [i])) = Some i).
  { destruct (path_eqb (p ++ [i]) (p ++ [0])) eqn:E; [| eapply index_now_ok; eassumption].
    apply path_eqb_ok, snoc_inj in E. destruct E as [_ ->]. reflexivity. }
  rewrite E. replace (i + 1) with (S i) by lia.
  destruct (slices_loop_ok gone p l cs Hs Hp Hg is i i [] Hsort Hlt) as [sl [I1 [I2 I3]]]; [cbn [slices_below]; repeat split; lia |].
  exists sl. split; [exact I1 |]. split; [exact I2 |]. intros x. rewrite I3. unfold in_slices. cbn [In]. split.
  - intros [[u [v [[Q | []] R]]] | Q]; [| now right]. injection Q as <- <-. left. lia.
  - intros [<- | Q]; [| now right]. left. exists i, (S i). split; [now left | lia].
Qed.

Lemma filter_app_list gone gone' (l : list path) :
  filter (fun q => negb (mem q (gone ++ gone'))) l = filter (fun q => negb (mem q gone')) (filter (fun q => negb (mem q gone)) l).
Proof.
  induction l as [| x l IH]; [reflexivity |]. cbn [filter].
  assert (E : mem x (gone ++ gone') = mem x gone || mem x gone') by (unfold mem; apply existsb_app). rewrite E.
  destruct (mem x gone); cbn [orb negb]; [exact IH |]. cbn [filter]. destruct (mem x gone'); cbn [negb]; now rewrite IH.
Qed.
Lemma filter_keep {T} (f : T -> bool) l : (forall x, In x l -> f x = true) -> filter f l = l.
Proof.
  induction l as [| x l IH]; intros H; [reflexivity |]. cbn [filter]. rewrite (H x (or_introl eq_refl)). f_equal. apply IH. intros y Hy. apply H. now right.
Qed.
Lemma del_slices p : forall sl bound gone rest, slices_below bound sl -> kids_now root gone p = map (fun i => p ++ [i]) (seq 0 bound) ++ rest ->
  forall q, In q (fold_left (del_slice root p) sl gone) <-> In q gone \/ exists x, in_slices sl x /\ q = p ++ [x].
Proof.
  induction sl as [| [a b] sl IH]; intros bound gone rest Hsl Hk q.
  - cbn [fold_left]. split; [now left |]. intros [H | [x [[u [v [[] _]]] _]]]. exact H.
  - cbn [slices_below] in Hsl. destruct Hsl as [L1 [L2 L3]]. cbn [fold_left].
    assert (E : slice (kids_now root gone p) a b = map (fun i => p ++ [i]) (seq a (b - a))).
    { rewrite Hk. unfold slice. replace bound with (a + ((b - a) + (bound - b))) by lia. rewrite seq_app, seq_app, !map_app, <- !app_assoc. cbn [plus].
      rewrite skipn_app, skipn_all2 by (rewrite map_length, seq_length; lia). rewrite map_length, seq_length, Nat.sub_diag. cbn [skipn app].
      rewrite firstn_app, firstn_all2 by (rewrite map_length, seq_length; lia). rewrite map_length, seq_length, Nat.sub_diag. cbn [firstn].
      apply app_nil_r. }
    assert (D : del_slice root p gone (a, b) = gone ++ map (fun i => p ++ [i]) (seq a (b - a))) by (unfold del_slice; cbn [fst snd]; now rewrite E).
    rewrite D.
    assert (K : kids_now root (gone ++ map (fun i => p ++ [i]) (seq a (b - a))) p =
      map (fun i => p ++ [i]) (seq 0 a) ++ filter (fun q => negb (mem q (map (fun i => p ++ [i]) (seq a (b - a))))) (map (fun i => p ++ [i]) (seq a (bound - a)) ++ rest)).
    { unfold kids_now. rewrite filter_app_list. change (filter (fun q => negb (mem q gone)) (kids p)) with (kids_now root gone p). rewrite Hk.
      replace bound with (a + (bound - a)) at 1 by lia. rewrite seq_app, map_app, <- app_assoc, filter_app. cbn [plus]. f_equal.
      apply filter_keep. intros x Hx. apply negb_true_iff, mem_no. intros Q. apply in_map_iff in Hx, Q.
      destruct Hx as [i [<- Hi]], Q as [j [Q Hj]]. apply snoc_inj in Q. destruct Q as [_ ->]. apply in_seq in Hi, Hj. lia. }
    rewrite (IH _ _ _ L3 K), in_app_iff. unfold in_slices. cbn [In]. split.
    + intros [[H | H] | [x [[u [v [H1 H2]]] ->]]].
      * now left.
      * apply in_map_iff in H. destruct H as [x [<- H]]. apply in_seq in H. right. exists x. split; [| reflexivity]. exists a, b. split; [now left | lia].
      * right. exists x. split; [| reflexivity]. exists u, v. split; [now right | exact H2].
    + intros [H | [x [[u [v [[H1 | H1] H2]]] ->]]].
      * left. now left.
      * injection H1 as <- <-. left. right. apply in_map_iff. exists x. split; [reflexivity | apply in_seq; lia].
      * right. exists x. split; [| reflexivity]. eauto.
Qed.

(** ** Sorting *)

Lemma insert_perm n l : Permutation (n :: l) (insert_pos root n l).
Proof.
  induction l as [| m l IH]; [apply Permutation_refl |]. cbn [insert_pos]. destruct (_ <=? _); [apply Permutation_refl |].
  eapply Permutation_trans; [apply perm_swap |]. now constructor.
Qed.
Lemma sort_perm l : Permutation l (sort_pos root l).
Proof.
  induction l as [| n l IH]; [constructor |]. cbn [sort_pos fold_right]. eapply Permutation_trans; [apply perm_skip, IH | apply insert_perm].
Qed.
Definition by_pos (a b : path) : Prop := pos_of root a <= pos_of root b.
Lemma insert_sorted n l : StronglySorted by_pos l -> StronglySorted by_pos (insert_pos root n l).
Proof.
  induction l as [| m l IH]; intros H; cbn [insert_pos]; [repeat constructor |]. inversion H as [| ? ? S1 S2]; subst.
  destruct (pos_of root n <=? pos_of root m) eqn:E.
  - constructor; [exact H |]. constructor; [unfold by_pos; lia |]. rewrite Forall_forall in *. intros x Hx. specialize (S2 x Hx). unfold by_pos in *. lia.
  - constructor; [now apply IH |]. rewrite Forall_forall in *. intros x Hx. apply (Permutation_in _ (Permutation_sym (insert_perm n l))) in Hx.
    destruct Hx as [<- | Hx]; [unfold by_pos; lia | now apply S2].
Qed.
Lemma sort_sorted l : StronglySorted by_pos (sort_pos root l).
Proof. induction l as [| n l IH]; [constructor |]. cbn [sort_pos fold_right]. apply insert_sorted, IH. Qed.

Lemma pos_increasing p l cs i j : node_at root p = Some (Ctx l cs) -> i < j < length cs -> pos_of root (p ++ [i]) < pos_of root (p ++ [j]).
Proof.
  intros Hp H. unfold pos_of, QueryModel.at_. rewrite !(node_at_snoc _ _ _ _ _ _ Hp). cbn [children].
  destruct (nth_error cs i) as [c |] eqn:Ec; [| apply nth_error_None in Ec; lia].
  destruct (nth_error cs j) as [d |] eqn:Ed; [| apply nth_error_None in Ed; lia].
  eapply wf_pos_lt; [exact (wf_node _ _ _ Hp) | | exact Ec | exact Ed]. lia.
Qed.
Lemma sorted_indices p l cs : node_at root p = Some (Ctx l cs) -> forall ns, StronglySorted by_pos ns -> NoDup ns ->
  (forall n, In n ns -> exists i, n = p ++ [i] /\ i < length cs) ->
  exists is, ns = map (fun i => p ++ [i]) is /\ StronglySorted lt is /\ forall x, In x is -> x < length cs.
Proof.
  intros Hp. induction ns as [| n ns IH]; intros Hs Nd H.
  - exists []. split; [reflexivity |]. split; [constructor | contradiction].
  - inversion Hs as [| ? ? S1 S2]; subst. inversion Nd as [| ? ? N1 N2]; subst.
    destruct (IH S1 N2) as [is [-> [I1 I2]]]; [intros m Hm; apply H; now right |]. destruct (H n (or_introl eq_refl)) as [i [-> Hi]].
    exists (i :: is). split; [reflexivity |]. split.
    + constructor; [exact I1 |]. apply Forall_forall. intros j Hj. specialize (I2 j Hj). rewrite Forall_forall in S2.
      assert (Hj' : In (p ++ [j]) (map (fun i => p ++ [i]) is)) by (apply in_map_iff; eauto).
      specialize (S2 _ Hj'). unfold by_pos in S2. destruct (lt_eq_lt_dec i j) as [[Q | ->] | Q]; [exact Q | contradiction |].
      pose proof (pos_increasing p l cs j i Hp ltac:(lia)). lia.
    + intros x [<- | Hx]; [exact Hi | now apply I2].
Qed.

(** ** All entries *)

Lemma stay_less N gone : some_stay N -> (forall x, In x gone -> In x N) -> some_stay gone.
Proof. intros H I p l cs H1 H2 H3. destruct (H p l cs H1 H2 H3) as [i [A1 A2]]. exists i. split; [exact A1 |]. intros Q. apply A2, I, Q. Qed.

Lemma delete_all_ok N : some_stay N -> forall d gone,
  NoDup (map fst d) ->
  (forall k l, In (k, l) d -> exists ls cs is, node_at root k = Some (Ctx ls cs) /\ l = map (fun i => k ++ [i]) is /\ is <> [] /\ StronglySorted lt is /\
     (forall x, In x is -> x < length cs)) ->
  (forall n, In n (nodes_of d) -> In n N) -> (forall n, In n gone -> In n N) ->
  (forall k i, In k (map fst d) -> ~ In (k ++ [i]) gone) ->
  exists gone', delete_all root gone d = Some gone' /\ forall q, In q gone' <-> In q gone \/ In q (nodes_of d).
Proof.
  intros Hs. induction d as [| [k l] d IH]; intros gone Nd He Hd Hg Hk.
  - exists gone. split; [reflexivity |]. intros q. cbn. tauto.
  - destruct (He k l (or_introl eq_refl)) as [lx [cs [is [E1 [E2 [E3 [E4 E5]]]]]]]. inversion Nd as [| ? ? N1 N2]; subst.
    assert (Hg' : some_stay gone) by (eapply stay_less; eassumption).
    assert (Hk' : forall i, ~ In (k ++ [i]) gone) by (intros i; apply Hk; now left).
    destruct (slices_of_ok gone k lx cs is Hg' E1 Hk' E3 E4 E5) as [sl [S1 [S2 S3]]].
    assert (Q : forall q, In q (fold_left (del_slice root k) sl gone) <-> In q gone \/ In q (map (fun i => k ++ [i]) is)).
    { intros q. rewrite (del_slices k sl (length cs) gone [] S2).
      - split; (intros [X | X]; [now left | right]).
        + destruct X as [x [X ->]]. apply in_map_iff. exists x. split; [reflexivity | now apply S3].
        + apply in_map_iff in X. destruct X as [x [<- X]]. exists x. split; [now apply S3 | reflexivity].
      - rewrite (kids_now_all _ _ Hk'), app_nil_r. unfold QueryModel.kids. rewrite (len_at _ _ _ _ _ E1). reflexivity. }
    cbn [delete_all]. rewrite S1.
    assert (Hn : forall n, In n (nodes_of ((k, map (fun i => k ++ [i]) is) :: d)) <-> In n (map (fun i => k ++ [i]) is) \/ In n (nodes_of d))
      by (intros n; unfold nodes_of; cbn [map snd concat]; apply in_app_iff).
    destruct (IH (fold_left (del_slice root k) sl gone)) as [gone' [I1 I2]].
    + exact N2.
    + intros k' l' H'. apply He. now right.
    + intros n H'. apply Hd, Hn. now right.
    + intros n H'. apply Q in H'. destruct H' as [H' | H']; [now apply Hg | apply Hd, Hn; now left].
    + intros k' i H' X. apply Q in X. destruct X as [X | X]; [exact (Hk k' i (or_intror H') X) |].
      apply in_map_iff in X. destruct X as [j [X _]]. apply snoc_inj in X. destruct X as [<- _]. contradiction.
    + exists gone'. split; [exact I1 |]. intros q. rewrite I2, Q, Hn. tauto.
Qed.

(** * The theorem *)

Theorem delete_ok ns : (forall n, In n ns -> valid root n) ->
  q_delete root ns = Some (deleted_tree ns root, removed_list ns [] 0 cs0).
Proof.
  intros V. unfold q_delete. destruct (topmost_ok ns) as [T1 [T2 [T3 T4]]]. set (N := q_remove_descendants (q_uniq ns)) in *. clearbody N.
  destruct (mem [] ns) eqn:E0.
  - (* the root is selected *)
    assert (C : covered N [] = true) by (rewrite T4; apply covered_ok; exists []; split; [now apply mem_ok | apply prefix_refl]).
    apply covered_ok in C. destruct C as [s [C1 [r C2]]]. symmetry in C2. apply app_eq_nil in C2. destruct C2 as [-> _].
    assert (E : N = [[]]).
    { destruct N as [| a [| b N]]; [contradiction | destruct C1 as [-> | []]; reflexivity |]. exfalso.
      assert (X : forall x, In x (a :: b :: N) -> x = []).
      { intros x Hx. destruct x as [| i x]; [reflexivity |]. destruct (T2 [] (i :: x) C1 Hx). now exists i, x. }
      pose proof (X a (or_introl eq_refl)) as Xa. pose proof (X b (or_intror (or_introl eq_refl))) as Xb. subst. inversion T1. cbn in *. tauto. }
    rewrite E. cbn [filter fold_left]. rewrite Hroot. cbn [deleted_tree].
    assert (X : forall p, covered ns p = true) by (intros p; apply covered_ok; exists []; split; [now apply mem_ok | now exists p]).
    assert (Y : forall (cs : list node) i, pruned_list ns [] i cs = [] /\ removed_list ns [] i cs = length cs).
    { clear - X. induction cs as [| c cs IH]; intros i; [split; reflexivity |]. cbn [pruned_list removed_list length]. destruct (IH (S i)) as [I1 I2].
      rewrite removed_none, pruned_covered, I1, I2 by (try apply pruned_covered; apply X). split; reflexivity. }
    destruct (Y cs0 0) as [-> ->]. reflexivity.
  - assert (H0 : ~ In [] N) by (intros H; apply T3 in H; apply mem_no in E0; contradiction).
    replace (filter _ N) with ([] : list path).
    2: { symmetry. apply filter_none. intros x Hx. destruct x; [contradiction | reflexivity]. }
    destruct (start_dict N []) as [D P].
    { constructor; try (intros; contradiction); try constructor. intros a b []. }
    { unfold nodes_of. cbn. now rewrite app_nil_r. }
    { unfold nodes_of. cbn. now rewrite app_nil_r. }
    { intros n Hn. split; [apply V, T3, Hn | intros ->; contradiction]. }
    match type of D with dict_ok ?x => set (d := x) in * end. clearbody d. unfold nodes_of in P at 1. cbn [map concat] in P. rewrite app_nil_r in P.
    destruct (up_loop (S (list_sum (map (@length nat) N))) d D) as [d' [U1 [U2 [U3 U4]]]].
    { rewrite <- (weight_perm _ _ P). unfold weight. lia. }
    rewrite U1.
    assert (Sm : same ns (nodes_of d')).
    { eapply same_trans; [| exact U3]. apply same_covered. intros p. rewrite <- T4. apply covered_same. intros x.
      split; apply Permutation_in; [exact P | now apply Permutation_sym]. }
    pose proof (end_some_stay d' U2 U4) as St.
    assert (R0 : ~ In [] (nodes_of d')).
    { intros H. apply nodes_of_in in H. destruct H as [k [l [H1 H2]]]. destruct (dk_child _ U2 _ _ _ H1 H2) as [i Hi]. now destruct k. }
    set (d2 := map (fun x => (fst x, sort_pos root (snd x))) d').
    assert (P2 : Permutation (nodes_of d') (nodes_of d2)).
    { unfold d2, nodes_of. clear. induction d' as [| [k l] d IH]; [constructor |]. cbn [map snd fst concat]. apply Permutation_app; [apply sort_perm | exact IH]. }
    destruct (delete_all_ok (nodes_of d') St d2 []) as [gone [G1 G2]].
    + unfold d2. rewrite map_map. cbn [fst]. apply U2.
    + intros k l H. unfold d2 in H. apply in_map_iff in H. destruct H as [[k' l'] [H1 H2]]. cbn [fst snd] in H1. injection H1 as <- <-.
      assert (El : exists n, In n l') by (destruct l' as [| n l'']; [destruct (dk_some _ U2 _ _ H2 eq_refl) | exists n; now left]). destruct El as [n El].
      destruct (entry_kids d' k' l' n U2 H2 El) as [i [-> Hi]].
      assert (Vn : valid root (k' ++ [i])).
      { apply (dk_valid _ U2), nodes_of_in. exists k', l'. split; [exact H2 | exact El]. }
      destruct (valid_child _ _ root _ _ Vn) as [lx [cs [Hat Hlt]]]. pose proof (len_at _ _ _ _ _ Hat) as Hlen. cbn [children] in Hlen.
      destruct (sorted_indices k' lx cs Hat (sort_pos root l')) as [is [I1 [I2 I3]]].
      * apply sort_sorted.
      * eapply Permutation_NoDup; [apply sort_perm | eapply entry_nodup; eassumption].
      * intros m Hm. apply (Permutation_in _ (Permutation_sym (sort_perm l'))) in Hm. rewrite <- Hlen. eapply entry_kids; eassumption.
      * exists lx, cs, is. repeat split; try assumption. intros ->. cbn in I1. pose proof (sort_perm l') as Q. rewrite I1 in Q.
        exact (Permutation_in _ Q El).
    + intros n Hn. eapply Permutation_in; [apply Permutation_sym; exact P2 | exact Hn].
    + contradiction.
    + intros k i _ [].
    + rewrite G1. f_equal. f_equal.
      * rewrite (shown_same gone (nodes_of d')).
        -- rewrite <- (deleted_shown _ St).
           ++ rewrite Hroot. cbn [deleted_tree]. f_equal. symmetry. apply Sm.
           ++ apply covered_no. intros s Hs [r Hr]. symmetry in Hr. apply app_eq_nil in Hr. destruct Hr as [-> _]. contradiction.
        -- intros x. rewrite G2. cbn [In]. split; [intros [[] | H]; eapply Permutation_in; [apply Permutation_sym; exact P2 | exact H] |].
           intros H. right. eapply Permutation_in; eassumption.
      * destruct Sm as [_ ->]. rewrite (removed_all _ St (dk_nodup _ U2) (dk_apart _ U2) (dk_valid _ U2) R0).
        rewrite (Permutation_length P2). unfold nodes_of. clear. induction d2 as [| x d IH]; [reflexivity |]. cbn [map list_sum fold_right concat].
        rewrite app_length. unfold list_sum in IH. now rewrite IH.
Qed.

(** What is left is well formed as well. *)
Lemma pruned_full V : forall (n m : node) p, pruned V p n = Some m -> full n -> full m.
Proof.
  intros n. induction n as [t | l cs IH] using node_ind'; intros m p E F.
  - rewrite pruned_tok in E. destruct (covered V p); [discriminate |]. injection E as <-. constructor.
  - rewrite pruned_ctx in E. destruct (covered V p); [discriminate |]. apply full_children in F. destruct F as [F1 F2].
    assert (X : forall i, Forall full (pruned_list V p i cs)).
    { clear - IH F2. induction IH as [| c cs Hc _ IHc]; intros i; [constructor |]. inversion F2 as [| ? ? Fc Fcs]; subst. cbn [pruned_list].
      destruct (pruned V (p ++ [i]) c) as [m |] eqn:E; [constructor; [eapply Hc; eassumption | now apply IHc] | now apply IHc]. }
    specialize (X 0). destruct (pruned_list V p 0 cs) as [| d ds]; [destruct cs; [congruence | discriminate] |]. injection E as <-.
    constructor; [discriminate | exact X].
Qed.
Lemma sub_filter (f : path * tok A -> bool) l : sub (map snd (filter f l)) (map snd l).
Proof. induction l as [| x l IH]; cbn [filter map]; [constructor |]. destruct (f x); constructor; exact IH. Qed.
Lemma tokens_flatten : forall (n : node) p, map snd (tokens_at p n) = flatten n.
Proof.
  intros n. induction n as [t | l cs IH] using node_ind'; intros p; [reflexivity |]. rewrite tokens_at_ctx, flatten_ctx. generalize 0.
  induction IH as [| c cs Hc _ IHc]; intros i; [reflexivity |]. cbn [tokens_list]. now rewrite map_app, Hc, IHc.
Qed.
Lemma deleted_tokens V : flatten (deleted_tree V root) = remaining V (tokens_at [] root).
Proof.
  destruct (covered V []) eqn:E; [| rewrite Hroot; now apply flatten_deleted].
  rewrite (remaining_covered V [] root E), Hroot. cbn [deleted_tree]. rewrite flatten_ctx.
  replace (pruned_list V [] 0 cs0) with ([] : list node); [reflexivity |].
  generalize 0. clear - E. induction cs0 as [| c cs IH]; intros i; [reflexivity |]. cbn [pruned_list]. rewrite pruned_covered; [apply IH |].
  eapply covered_down; [| exact E]. now exists ([] ++ [i]).
Qed.
Lemma deleted_wf V : wf_children (children (deleted_tree V root)).
Proof.
  pose proof (deleted_tokens V) as T. rewrite Hroot in *. cbn [deleted_tree children] in *. destruct Hwf as [W1 W2]. split.
  - generalize 0. clear - W1. induction W1 as [| c cs Hc _ IH]; intros i; [constructor |]. cbn [pruned_list].
    destruct (pruned V ([] ++ [i]) c) as [m |] eqn:E; [constructor; [eapply pruned_full; eassumption | apply IH] | apply IH].
  - rewrite flatten_ctx in T. rewrite T. eapply sub_order; [apply sub_filter |]. rewrite tokens_flatten, flatten_ctx. exact W2.
Qed.

End Proofs.
