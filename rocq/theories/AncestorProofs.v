(** Proofs about nodes above other nodes and ranges between two tokens. *)
From Verif Require Import Base BaseFacts TargetModel LexerModel LexerSpec TreeModel TreeSpec TreeProofs TreeWalkProofs TreeRangeProofs AncestorModel AncestorSpec.
From Coq Require Import ZArith ZifyBool.

Lemma same_node_spec a b : same_node a b = true <-> a = b.
Proof.
  destruct a as [i p], b as [j q]. unfold same_node. cbn [fst snd]. rewrite andb_true_iff, Nat.eqb_eq. unfold path_eqb.
  rewrite (list_eqb_spec Nat.eqb Nat.eqb_eq). split; [intros [-> ->]; reflexivity | intros [= -> ->]; auto].
Qed.
Lemma exists_same a l : existsb (same_node a) l = true <-> In a l.
Proof.
  rewrite existsb_exists. split; [intros (x & H & E); apply same_node_spec in E; now subst | intros H; exists a; split; [exact H | now apply same_node_spec]].
Qed.
Lemma ancestors_none p : ancestors p None = rev (seq 0 (length p)).
Proof.
  unfold ancestors. induction (length p) as [| d IH]; [reflexivity |]. rewrite seq_S, rev_app_distr. cbn. now rewrite IH.
Qed.
Lemma rev_seq_nth n i : i < n -> nth_error (rev (seq 0 n)) i = Some (n - 1 - i).
Proof.
  intros H. induction n as [| n IH] in i, H |- *; [lia |]. rewrite seq_S, rev_app_distr. cbn [rev app]. destruct i as [| i]; cbn [nth_error]; [f_equal; lia |].
  rewrite IH by lia. f_equal. lia.
Qed.
Lemma nth_ancestor n i a : nth_error (ancestors_of n None) i = Some a <-> steps_above (S i) a n.
Proof.
  unfold ancestors_of, steps_above. rewrite ancestors_none, nth_error_map. destruct n as [k p], a as [k' q]. cbn [fst snd]. split.
  - intros H. destruct (Nat.ltb_spec i (length p)) as [Hi | Hi].
    + rewrite rev_seq_nth in H by exact Hi. cbn in H. injection H as <- <-. split; [reflexivity |]. exists (skipn (length p - 1 - i) p). split; [rewrite skipn_length; lia |]. symmetry. apply firstn_skipn.
    + assert (E : nth_error (rev (seq 0 (length p))) i = None) by (apply nth_error_None; rewrite rev_length, seq_length; exact Hi). rewrite E in H. discriminate.
  - intros (-> & r & Hr & E). rewrite rev_seq_nth by (rewrite E, app_length; lia). cbn. unfold up_to. cbn [fst snd]. do 2 f_equal. rewrite E, app_length, Hr.
    replace (length q + S i - 1 - i) with (length q + 0) by lia. rewrite firstn_app_2. cbn. apply app_nil_r.
Qed.
Lemma above_steps a n : above a n <-> exists i, steps_above (S i) a n.
Proof.
  split.
  - intros (H & r & Hr & E). destruct r as [| x r]; [congruence |]. exists (length r). split; [exact H |]. exists (x :: r). split; [reflexivity | exact E].
  - intros (i & H & r & Hr & E). split; [exact H |]. exists r. split; [intros ->; discriminate | exact E].
Qed.
Lemma in_ancestors a n : In a (ancestors_of n None) <-> above a n.
Proof.
  rewrite above_steps. split; [intros H; apply In_nth_error in H as [i H]; exists i; now apply nth_ancestor | intros [i H]; apply nth_ancestor in H; now apply nth_error_In in H].
Qed.
Lemma depth_ok n : depth n = length (snd n).
Proof.
  unfold depth, ancestors_of. rewrite ancestors_none. assert (G : forall (l : list nid) k, fold_left (fun k _ => k + 1) l k = k + length l).
  { induction l as [| x l IH]; intros k; cbn; [lia | rewrite IH; lia]. }
  rewrite G, map_length, rev_length, seq_length. reflexivity.
Qed.
Lemma root_ok n : n_root n = (fst n, []).
Proof.
  unfold n_root, ancestors_of. rewrite ancestors_none. destruct n as [k p]. cbn [fst snd]. destruct p as [| x p]; [reflexivity |]. cbn [length]. rewrite <- cons_seq. cbn [rev]. rewrite map_app, fold_left_app. reflexivity.
Qed.
Lemma is_ancestor_ok a n : is_ancestor_of a n = true <-> above a n.
Proof.
  unfold is_ancestor_of. rewrite <- in_ancestors, existsb_exists. split; [intros (x & H & E); apply same_node_spec in E; now subst | intros H; exists a; split; [exact H | now apply same_node_spec]].
Qed.
(** Of the nodes above a node the first that is found is the nearest. *)
Lemma app_same_or {X} (a b c d : list X) : a ++ b = c ++ d -> length a <= length c -> exists m, c = a ++ m.
Proof.
  revert c. induction a as [| x a IH]; intros c E H; [now exists c |]. destruct c as [| y c]; [cbn in H; lia |]. injection E as <- E. destruct (IH c E) as [m ->]; [cbn in H; lia |]. now exists m.
Qed.
Lemma chain_above a b n : at_or_above a n -> at_or_above b n -> length (snd a) <= length (snd b) -> at_or_above a b.
Proof.
  intros Ha Hb Hl. assert (G : forall x, at_or_above x n -> fst x = fst n /\ exists r, snd n = snd x ++ r).
  { intros x [-> | (H & r & _ & E)]; [split; [reflexivity | exists []; symmetry; apply app_nil_r] | split; [exact H | now exists r]]. }
  destruct (G a Ha) as (Fa & ra & Ea). destruct (G b Hb) as (Fb & rb & Eb). rewrite Ea in Eb. destruct (app_same_or _ _ _ _ Eb Hl) as [m E].
  destruct m as [| x m]; [left; destruct a, b; cbn in *; rewrite app_nil_r in E; congruence |]. right. split; [congruence |]. exists (x :: m). split; [discriminate | exact E].
Qed.
Lemma find_nearest (p : nid -> bool) n c : find p (ancestors_of n None) = Some c -> above c n /\ p c = true /\ forall d, above d n -> p d = true -> at_or_above d c.
Proof.
  intros H. destruct (find_split p _ _ H) as (x & y & E & Hp & Hx). assert (Hc : nth_error (ancestors_of n None) (length x) = Some c) by (rewrite E, nth_error_app2 by lia; now rewrite Nat.sub_diag).
  apply nth_ancestor in Hc. assert (Hab : above c n) by (apply above_steps; now exists (length x)). split; [exact Hab |]. split; [exact Hp |]. intros d Hd Hpd.
  destruct (proj1 (above_steps d n) Hd) as [i Hi]. pose proof Hi as Hi'. apply nth_ancestor in Hi. destruct (Nat.ltb_spec i (length x)) as [Hlt | Hge].
  - exfalso. rewrite E, nth_error_app1 in Hi by exact Hlt. apply nth_error_In in Hi. rewrite Forall_forall in Hx. rewrite (Hx d Hi) in Hpd. discriminate.
  - apply (chain_above d c n); [now right | now right |]. destruct Hc as (_ & rc & Lc & Ec). destruct Hi' as (_ & rd & Ld & Ed). apply (f_equal (@length nat)) in Ec, Ed. rewrite app_length in Ec, Ed. lia.
Qed.
Lemma find_nothing (p : nid -> bool) n : find p (ancestors_of n None) = None -> forall d, above d n -> p d = false.
Proof. intros H d Hd. apply (find_none p _ H). now apply in_ancestors. Qed.

Section Proofs.
Variables L A : Type.
Notation node := (node L A).
Notation tok := (tok A).
Notation flatten := (@flatten L A).

Lemma above_context trees a n (m : node) : above a n -> node_of trees n = Some m -> is_context trees a = true.
Proof.
  intros (F & r & Hr & E) Hm. unfold is_context. unfold node_of in *. rewrite F. destruct (nth_error trees (fst n)) as [t |]; [| discriminate]. rewrite E, (node_at_app _ _ t (snd a) r) in Hm. destruct (node_at t (snd a)) as [[u | l cs] |]; [| reflexivity | discriminate].
  destruct r as [| i r]; [congruence |]. cbn in Hm. destruct i; discriminate.
Qed.
Lemma common_ok trees self other (s o : node) : node_of trees self = Some s -> node_of trees other = Some o ->
  match common_ancestor trees self other with
  | Some c => is_context trees c = true /\ at_or_above c self /\ at_or_above c other
              /\ (forall d, is_context trees d = true -> at_or_above d self -> at_or_above d other -> at_or_above d c)
  | None => forall d, is_context trees d = true -> at_or_above d self -> ~ at_or_above d other
  end.
Proof.
  intros Hs Ho. unfold common_ancestor. set (as_ := (if is_context trees self then [self] else []) ++ ancestors_of self None).
  assert (Has : forall d, is_context trees d = true -> (In d as_ <-> at_or_above d self)).
  { intros d Hd. unfold as_. rewrite in_app_iff, in_ancestors. unfold at_or_above. destruct (is_context trees self) eqn:E; cbn; [intuition congruence |]. split; [tauto |]. intros [-> | H]; [congruence | tauto]. }
  destruct (is_context trees other && existsb (same_node other) as_) eqn:E.
  - apply andb_true_iff in E as [E1 E2]. apply exists_same in E2. split; [exact E1 |]. split; [now apply Has |]. split; [now left |]. intros d Hd _ H. exact H.
  - assert (Hno : forall d, is_context trees d = true -> at_or_above d self -> at_or_above d other -> above d other).
    { intros d Hd H1 [-> | H2]; [| exact H2]. apply andb_false_iff in E as [E | E]; [congruence |]. apply Has in H1; [| exact Hd]. apply exists_same in H1. congruence. }
    destruct (find (fun n => existsb (same_node n) as_) (ancestors_of other None)) as [c |] eqn:F.
    + apply find_nearest in F as (F1 & F2 & F3). apply exists_same in F2. assert (Hc : is_context trees c = true) by exact (above_context trees c other o F1 Ho).
      split; [exact Hc |]. split; [now apply Has |]. split; [now right |]. intros d Hd H1 H2. apply F3; [now apply Hno |]. apply exists_same. now apply Has.
    + intros d Hd H1 H2. pose proof (find_nothing _ _ F d (Hno d Hd H1 H2)) as G. cbv beta in G. apply Has in H1; [| exact Hd]. apply exists_same in H1. congruence.
Qed.
Lemma common_exists trees self other (s o : node) : node_of trees self = Some s -> node_of trees other = Some o -> (forall t, In t trees -> exists l cs, t = Ctx l cs) ->
  (common_ancestor trees self other <> None <-> fst self = fst other).
Proof.
  intros Hs Ho Hroot. pose proof (common_ok trees self other s o Hs Ho) as H. destruct (common_ancestor trees self other) as [c |].
  - split; [| discriminate]. intros _. destruct H as (_ & H1 & H2 & _). assert (G : forall n, at_or_above c n -> fst c = fst n) by (intros n [-> | [G _]]; auto). now rewrite <- (G self H1), (G other H2).
  - split; [congruence |]. intros E. exfalso. assert (G : forall n, fst n = fst self -> at_or_above (fst self, []) n).
    { intros [k p] E1. cbn in E1. subst k. destruct p as [| i p]; [now left |]. right. split; [reflexivity |]. exists (i :: p). split; [discriminate | reflexivity]. }
    apply (H (fst self, [])); [| now apply G | now apply G]. unfold is_context. unfold node_of in *. cbn [fst snd]. destruct (nth_error trees (fst self)) as [t |] eqn:Et; [| discriminate].
    apply nth_error_In in Et. destruct (Hroot t Et) as (l & cs & ->). reflexivity.
Qed.

(** ** Ancestors upto a node *)

Lemma path_eqb_spec a b : path_eqb a b = true <-> a = b.
Proof. apply list_eqb_spec. intros x y. apply Nat.eqb_eq. Qed.
Lemma from_stop e d path : e < d -> d <= length path -> ancestors_from d path (Some (firstn e path)) = rev (seq (S e) (d - S e)).
Proof.
  intros He Hd. induction d as [| d IH]; [lia |]. cbn [ancestors_from]. destruct (Nat.eq_dec d e) as [-> | Hne].
  - rewrite (proj2 (path_eqb_spec _ _) eq_refl), Nat.sub_diag. reflexivity.
  - assert (E : path_eqb (firstn d path) (firstn e path) = false).
    { destruct (path_eqb (firstn d path) (firstn e path)) eqn:E; [| reflexivity]. exfalso. apply path_eqb_spec in E. apply (f_equal (@length nat)) in E. rewrite !firstn_length in E. lia. }
    rewrite E, IH by lia. replace (S d - S e) with (S (d - S e)) by lia. rewrite seq_S, rev_app_distr. cbn [rev app]. f_equal. lia.
Qed.
Lemma from_no_stop d path stop : (forall e, e < d -> firstn e path <> stop) -> ancestors_from d path (Some stop) = rev (seq 0 d).
Proof.
  intros H. induction d as [| d IH]; [reflexivity |]. cbn [ancestors_from]. destruct (path_eqb (firstn d path) stop) eqn:E.
  - exfalso. apply path_eqb_spec in E. exact (H d ltac:(lia) E).
  - rewrite IH by (intros e He; apply H; lia). now rewrite seq_S, rev_app_distr.
Qed.
Lemma in_rev_seq d a n : In d (rev (seq a n)) <-> a <= d < a + n.
Proof. now rewrite <- in_rev, in_seq. Qed.
(** The nodes above, from their depths. *)
Lemma in_up_to k p a l : (forall d, In d l -> d < length p) -> (In a (map (up_to (k, p)) l) <-> above a (k, p) /\ In (length (snd a)) l).
Proof.
  intros Hl. rewrite in_map_iff. unfold up_to, above. destruct a as [k' q]. cbn [fst snd]. split.
  - intros (d & [= <- <-] & Hd). pose proof (Hl d Hd) as Hlt. rewrite firstn_length, Nat.min_l by lia. split; [| exact Hd]. split; [reflexivity |]. exists (skipn d p).
    split; [intros E; apply (f_equal (@length nat)) in E; rewrite skipn_length in E; cbn in E; lia | symmetry; apply firstn_skipn].
  - intros ((-> & r & _ & E) & Hd). exists (length q). split; [| exact Hd]. rewrite E, firstn_app, firstn_all, Nat.sub_diag. cbn. now rewrite app_nil_r.
Qed.
Lemma upto_above n u a : above u n -> (In a (ancestors_of n (Some u)) <-> above a n /\ at_or_above u a).
Proof.
  intros Hu. pose proof Hu as (F & r & Hr & E). destruct n as [k p], u as [k' q]. cbn [fst snd] in F, E. subst k'. unfold ancestors_of. cbn [fst snd]. rewrite Nat.eqb_refl.
  assert (Hlen : length q < length p) by (rewrite E, app_length; destruct r; [congruence | cbn; lia]).
  assert (G : forall d, In d (ancestors p (Some q)) <-> length q <= d < length p).
  { intros d. destruct q as [| i q].
    - change (ancestors p (Some [])) with (ancestors p None). rewrite ancestors_none, in_rev_seq. cbn. lia.
    - unfold ancestors. assert (Es : removelast (i :: q) = firstn (length q) p).
      { rewrite E. rewrite firstn_app. replace (length q - length (i :: q)) with 0 by (cbn; lia). rewrite firstn_O, app_nil_r. clear. revert i. induction q as [| j q IH]; intros i; [reflexivity |]. cbn [length firstn]. rewrite <- (IH j). reflexivity. }
      rewrite Es, from_stop by (cbn in Hlen; lia). rewrite in_rev_seq. cbn [length] in *. lia. }
  rewrite in_up_to by (intros d Hd; apply G in Hd; lia). rewrite G. split.
  - intros [Ha Hd]. split; [exact Ha |]. apply (chain_above (k, q) a (k, p)); [now right | now right | cbn [snd]; lia].
  - intros [Ha Hua]. split; [exact Ha |]. split.
    + destruct Hua as [<- | (_ & r' & _ & E')]; [cbn; lia |]. rewrite E', app_length. cbn. lia.
    + destruct Ha as (_ & r' & Hr' & E'). cbn [snd] in E'. rewrite E', app_length. destruct r'; [congruence | cbn; lia].
Qed.
(** If neither the node nor its parent are above the other one. *)
Lemma upto_elsewhere n u : snd u = [] \/ ~ above (fst u, removelast (snd u)) n -> ancestors_of n (Some u) = ancestors_of n None.
Proof.
  intros H. destruct n as [k p], u as [k' q]. cbn [fst snd] in H. unfold ancestors_of. cbn [fst snd]. destruct (k' =? k) eqn:E; [| reflexivity]. apply Nat.eqb_eq in E. subst k'.
  destruct q as [| i q]; [reflexivity |]. destruct H as [H | H]; [discriminate |]. f_equal. rewrite ancestors_none. unfold ancestors. apply from_no_stop. intros e He Es. apply H. split; [reflexivity |]. cbn [snd].
  exists (skipn e p). split; [intros E; apply (f_equal (@length nat)) in E; rewrite skipn_length in E; cbn in E; lia |]. rewrite <- Es. symmetry. apply firstn_skipn.
Qed.

(** ** Tokens upto another token *)

Lemma with_index_ok trees k p (t : node) d (m : node) : nth_error trees k = Some t -> wf_children (children t) -> node_at t p = Some m -> d < length p ->
  with_index trees (k, p) d = Some ((k, firstn d p), nth d p 0).
Proof.
  intros Ht Hwf Hm Hd. unfold with_index. cbn [fst snd]. rewrite Ht. assert (E : ancestor_with_index t p d <> None /\ forall x, ancestor_with_index t p d = Some x -> snd x = nth d p 0).
  { clear Ht. revert t p Hwf Hm Hd. induction d as [| d IH]; intros t p Hwf Hm Hd; (destruct p as [| i p]; [cbn in Hd; lia |]); cbn [node_at] in Hm; destruct (nth_error (children t) i) as [c |] eqn:Ei; try discriminate.
    - unfold ancestor_with_index. cbn [firstn node_at nth_error]. destruct t as [u | l cs]; [destruct i; discriminate |]. cbn [children] in *. rewrite (parent_index_ok _ _ cs i Hwf) by (apply nth_error_Some; congruence). split; [discriminate |]. intros x [= <-]. reflexivity.
    - destruct (IH c p (wf_node_child _ _ _ _ _ Hwf Ei) Hm ltac:(cbn in Hd; lia)) as [G1 G2]. unfold ancestor_with_index in *. cbn [firstn node_at nth_error nth]. rewrite Ei. split; [exact G1 | exact G2]. }
  destruct E as [E1 E2]. destruct (ancestor_with_index t p d) as [[cs i] |]; [| congruence]. rewrite <- (E2 _ eq_refl). reflexivity.
Qed.

Lemma all_opt_map {X Y} (f : X -> option Y) g l : (forall x, In x l -> f x = Some (g x)) -> all_opt f l = Some (map g l).
Proof. induction l as [| x l IH]; intros H; [reflexivity |]. cbn. rewrite (H x (or_introl eq_refl)), IH; [reflexivity |]. intros y Hy. apply H. now right. Qed.
Lemma skipn_nth {X} (d0 : X) l d : d < length l -> skipn d l = nth d l d0 :: skipn (S d) l.
Proof. revert d. induction l as [| x l IH]; intros d H; [cbn in H; lia |]. destruct d as [| d]; [reflexivity |]. cbn. apply IH. cbn in H. lia. Qed.
Lemma rev_nths p n : n <= length p -> map (fun d => nth d p 0) (rev (seq 0 n)) = rev (firstn n p).
Proof.
  intros H. rewrite map_rev. f_equal. revert n H. induction p as [| x p IH]; intros n H; [cbn in H; assert (n = 0) as -> by lia; reflexivity |]. destruct n as [| n]; [reflexivity |]. cbn [seq map firstn nth]. f_equal.
  rewrite <- seq_shift, map_map. apply IH. cbn in H. lia.
Qed.
Lemma index_in k p d n : d < n -> n <= length p -> index_of (k, firstn d p) (map (fun d => (k, firstn d p)) (rev (seq 0 n))) = Some (n - 1 - d).
Proof.
  intros Hd Hn. induction n as [| n IH]; [lia |]. rewrite seq_S, rev_app_distr. cbn [rev app map index_of plus]. destruct (Nat.eq_dec d n) as [-> | Hne].
  - rewrite (proj2 (same_node_spec _ _) eq_refl). f_equal. lia.
  - destruct (same_node (k, firstn n p) (k, firstn d p)) eqn:E.
    + exfalso. apply same_node_spec in E. injection E as E. apply (f_equal (@length nat)) in E. rewrite !firstn_length in E. lia.
    + rewrite IH by lia. cbn. f_equal. lia.
Qed.
Lemma index_not n l : ~ In n l -> index_of n l = None.
Proof. induction l as [| a l IH]; intros H; [reflexivity |]. cbn. destruct (same_node a n) eqn:E; [apply same_node_spec in E; exfalso; apply H; now left |]. rewrite IH; [reflexivity |]. intros G. apply H. now right. Qed.
(** The loop stops at the last common step. *)
Lemma loop_ok trees k p q t (y : node) m : nth_error trees k = Some t -> wf_children (children t) -> node_at t q = Some y -> p <> [] -> 0 < m -> m <= length q ->
  exists d, trail_loop trees (k, q) (map (fun d => (k, firstn d p)) (rev (seq 0 (length p)))) (rev p) (rev (skipn m q)) (rev (seq 0 m))
              = Some (Some ((k, firstn d p), skipn d p, skipn d q))
    /\ d < m /\ d < length p /\ firstn d p = firstn d q /\ forall e, d < e < m -> ~ (e < length p /\ firstn e p = firstn e q).
Proof.
  intros Ht Hwf Hq Hp. induction m as [| m IH]; intros Hm Hle; [lia |]. rewrite seq_S, rev_app_distr. cbn [rev app plus trail_loop]. rewrite (with_index_ok trees k q t m y Ht Hwf Hq) by lia. cbv zeta.
  assert (Eo : rev (skipn (S m) q) ++ [nth m q 0] = rev (skipn m q)) by (rewrite (skipn_nth 0 q m) by lia; reflexivity). rewrite Eo.
  destruct (Nat.ltb_spec m (length p)) as [Hlt | Hge]; [destruct (list_eq_dec Nat.eq_dec (firstn m p) (firstn m q)) as [E | E] |].
  - rewrite <- E, index_in by lia. exists m. split; [| split; [lia | split; [exact Hlt | split; [exact E | lia]]]]. do 2 f_equal. rewrite rev_involutive. do 2 f_equal.
    rewrite firstn_rev, rev_involutive. f_equal. lia.
  - rewrite index_not.
    + destruct (Nat.eq_dec m 0) as [-> | Hm0]; [now destruct E |]. destruct IH as (d & H1 & H2 & H3 & H4 & H5); [lia | lia |]. exists d. split; [exact H1 |]. split; [lia |]. split; [exact H3 |]. split; [exact H4 |].
      intros e He. destruct (Nat.eq_dec e m) as [-> | Hne]; [tauto | apply H5; lia].
    + intros G. apply in_map_iff in G as (d & [= G] & Hd). apply in_rev_seq in Hd. assert (d = m) as -> by (apply (f_equal (@length nat)) in G; rewrite !firstn_length in G; lia). congruence.
  - rewrite index_not.
    + destruct (Nat.eq_dec m 0) as [-> | Hm0]; [destruct p; [congruence | cbn in Hge; lia] |]. destruct IH as (d & H1 & H2 & H3 & H4 & H5); [lia | lia |]. exists d. split; [exact H1 |]. split; [lia |]. split; [exact H3 |]. split; [exact H4 |].
      intros e He. destruct (Nat.eq_dec e m) as [-> | Hne]; [lia | apply H5; lia].
    + intros G. apply in_map_iff in G as (d & [= G] & Hd). apply in_rev_seq in Hd. apply (f_equal (@length nat)) in G. rewrite !firstn_length in G. lia.
Qed.
Lemma loop_other trees k k' q t (y : node) anc ind m o : k <> k' -> Forall (fun a => fst a = k) anc -> nth_error trees k' = Some t -> wf_children (children t) -> node_at t q = Some y -> m <= length q ->
  trail_loop trees (k', q) anc ind o (rev (seq 0 m)) = Some None.
Proof.
  intros Hk Ha Ht Hwf Hq. revert o. induction m as [| m IH]; intros o Hle; [reflexivity |]. rewrite seq_S, rev_app_distr. cbn [rev app plus trail_loop]. rewrite (with_index_ok trees k' q t m y Ht Hwf Hq) by lia. cbv zeta.
  rewrite index_not; [apply IH; lia |]. intros G. rewrite Forall_forall in Ha. apply Ha in G. cbn in G. congruence.
Qed.
(** The token that comes first in the text has the smaller index where the paths part. *)
Lemma tok_in (n : node) path t : node_at n path = Some (Tok t) -> In t (flatten n).
Proof. intros H. rewrite (pre_suf _ _ _ _ _ H). apply in_or_app. right. apply in_or_app. left. now left. Qed.
Lemma order_children (l : L) (cs : list node) i e c d s o : in_order (flatten (Ctx l cs)) -> nth_error cs i = Some c -> nth_error cs e = Some d -> In s (flatten c) -> In o (flatten d) -> e < i -> k_end o <= k_pos s.
Proof.
  intros HO Hi He Hs Ho Hlt. rewrite flatten_ctx in HO. apply nth_error_split in He as (x & y & E & Hx). assert (Hin : In c y).
  { subst cs. rewrite nth_error_app2 in Hi by lia. rewrite Hx in Hi. destruct (i - e) as [| j] eqn:Ej; [lia |]. cbn in Hi. now apply nth_error_In in Hi. }
  subst cs. rewrite flat_app in HO. apply in_order_app in HO as (_ & HO & _). rewrite flat_cons in HO. apply in_order_app in HO as (_ & _ & HO). apply HO; [exact Ho |]. unfold flat. apply in_concat. exists (flatten c). split; [now apply in_map | exact Hs].
Qed.
Lemma token_leaf (n : node) path q t m : node_at n path = Some (Tok t) -> node_at n (path ++ q) = Some m -> q = [].
Proof. intros H1 H2. rewrite (node_at_app _ _ n path q), H1 in H2. destruct q as [| [|] q]; [reflexivity | discriminate | discriminate]. Qed.

(** Two tokens of one tree. *)
Lemma trail_ok trees k p q (t : node) s o : nth_error trees k = Some t -> wf_children (children t) -> node_at t p = Some (Tok s) -> node_at t q = Some (Tok o) -> p <> [] -> q <> [] -> p = q \/ k_pos s < k_pos o ->
  exists d l cs, common_ancestor_with_trail trees (k, p) s (k, q) o = Some (Some ((k, firstn d p), skipn d p, skipn d q))
    /\ firstn d p = firstn d q /\ node_at t (firstn d p) = Some (Ctx l cs)
    /\ match skipn d p, skipn d q with i :: p', e :: q' => i < e \/ p' = [] /\ q' = [] /\ i = e | _, _ => False end.
Proof.
  intros Ht Hwf Hs Ho Hp Hq Hpos. assert (Hpre : forall d, d < length p -> exists l cs, node_at t (firstn d p) = Some (Ctx l cs)).
  { intros d Hd. assert (E : node_at t (firstn d p ++ skipn d p) = Some (Tok s)) by (rewrite firstn_skipn; exact Hs). rewrite (node_at_app _ _ t) in E. destruct (node_at t (firstn d p)) as [[u | l cs] |]; [| now exists l, cs | discriminate].
    destruct (skipn d p) as [| x r] eqn:Ex; [apply (f_equal (@length nat)) in Ex; rewrite skipn_length in Ex; cbn in Ex; lia |]. cbn in E. destruct x; discriminate. }
  unfold common_ancestor_with_trail. destruct (same_node (k, q) (k, p)) eqn:Esame.
  - apply same_node_spec in Esame. injection Esame as ->. cbn [snd]. rewrite ancestors_none. destruct (length p) as [| d] eqn:El; [destruct p; [congruence | discriminate] |]. rewrite seq_S, rev_app_distr. cbn [rev app plus].
    rewrite (with_index_ok trees k p t d _ Ht Hwf Hs) by lia. destruct (Hpre d ltac:(lia)) as (l & cs & Hc). exists d, l, cs.
    assert (Esk : skipn d p = [nth d p 0]) by (rewrite (skipn_nth 0 p d) by lia; f_equal; apply skipn_all2; lia).
    rewrite Esk. split; [reflexivity |]. split; [reflexivity |]. split; [exact Hc |]. right. auto.
  - assert (Hne : p <> q) by (intros ->; rewrite (proj2 (same_node_spec _ _) eq_refl) in Esame; discriminate). destruct Hpos as [-> | Hpos]; [congruence |].
    rewrite (proj2 (Nat.ltb_lt _ _) Hpos). cbn [snd]. rewrite !ancestors_none.
    rewrite (all_opt_map _ (fun d => ((k, firstn d p), nth d p 0))) by (intros d Hd; apply in_rev_seq in Hd; apply (with_index_ok trees k p t d _ Ht Hwf Hs); lia).
    set (al := map (fun d => ((k, firstn d p), nth d p 0)) (rev (seq 0 (length p)))).
    assert (Hal : al <> []) by (unfold al; intros E; apply (f_equal (@length _)) in E; rewrite map_length, rev_length, seq_length in E; destruct p; [congruence | discriminate]).
    assert (E1 : map fst al = map (fun d => (k, firstn d p)) (rev (seq 0 (length p)))) by (unfold al; rewrite map_map; reflexivity).
    assert (E2 : map snd al = rev p) by (unfold al; rewrite map_map; cbn [snd]; rewrite rev_nths, firstn_all by lia; reflexivity).
    destruct (loop_ok trees k p q t _ (length q) Ht Hwf Ho Hp) as (d & H1 & H2 & H3 & H4 & H5); [destruct q; [congruence | cbn; lia] | lia |].
    rewrite skipn_all in H1. cbn [rev] in H1. destruct (Hpre d H3) as (l & cs & Hc). exists d, l, cs.
    split; [revert E1 E2; destruct al as [| a0 al0]; [congruence |]; intros E1 E2; rewrite <- E1, <- E2 in H1; exact H1 |]. split; [exact H4 |]. split; [exact Hc |].
    rewrite (skipn_nth 0 p d H3), (skipn_nth 0 q d H2). set (i := nth d p 0). set (e := nth d q 0). left.
    assert (Hsp : node_at (Ctx l cs) (i :: skipn (S d) p) = Some (Tok s)). { rewrite <- (firstn_skipn d p), (node_at_app _ _ t), Hc, (skipn_nth 0 p d H3) in Hs. exact Hs. }
    assert (Hoq : node_at (Ctx l cs) (e :: skipn (S d) q) = Some (Tok o)). { rewrite <- (firstn_skipn d q), (node_at_app _ _ t), <- H4, Hc, (skipn_nth 0 q d H2) in Ho. exact Ho. }
    assert (Hie : i <> e).
    { intros Eie. assert (Ef : firstn (S d) p = firstn (S d) q).
      { assert (F : forall r, d < length r -> firstn (S d) r = firstn d r ++ [nth d r 0]).
        { clear. intros r. revert d. induction r as [| x r IH]; intros d Hd; [cbn in Hd; lia |]. destruct d as [| d]; [reflexivity |]. cbn. f_equal. apply IH. cbn in Hd. lia. }
        rewrite (F p H3), (F q H2), H4. unfold i, e in Eie. now rewrite Eie. }
      destruct (Nat.eq_dec (S d) (length p)) as [Ep | Ep].
      - assert (Efp : firstn (S d) q = p) by (rewrite <- Ef, Ep; apply firstn_all). assert (G : skipn (S d) q = []) by (apply (token_leaf t p (skipn (S d) q) s (Tok o) Hs); rewrite <- Efp at 1; now rewrite firstn_skipn).
        rewrite <- (firstn_skipn (S d) q), G, app_nil_r in Hne. congruence.
      - destruct (Nat.eq_dec (S d) (length q)) as [Eq | Eq].
        + assert (Efq : firstn (S d) p = q) by (rewrite Ef, Eq; apply firstn_all). assert (G : skipn (S d) p = []) by (apply (token_leaf t q (skipn (S d) p) o (Tok s) Ho); rewrite <- Efq at 1; now rewrite firstn_skipn).
          rewrite <- (firstn_skipn (S d) p), G, app_nil_r in Hne. congruence.
        + apply (H5 (S d)); [lia | split; [lia | exact Ef]]. }
    assert (HO : in_order (flatten (Ctx l cs))).
    { assert (HOt : in_order (flatten t)) by (destruct t as [u | lt ct]; [destruct p as [| [|] p]; [congruence | discriminate | discriminate] | rewrite flatten_ctx; exact (proj2 Hwf)]).
      rewrite (pre_suf _ _ _ _ _ Hc) in HOt. apply in_order_app in HOt as (_ & HOt & _). now apply in_order_app in HOt. }
    destruct (Nat.lt_trichotomy i e) as [H | [H | H]]; [exact H | congruence |]. exfalso. cbn [node_at children] in Hsp, Hoq.
    destruct (nth_error cs i) as [c |] eqn:Ei; [| discriminate]. destruct (nth_error cs e) as [c' |] eqn:Ee; [| discriminate].
    pose proof (order_children l cs i e c c' s o HO Ei Ee (tok_in _ _ _ Hsp) (tok_in _ _ _ Hoq) H) as G. unfold k_end in G. lia.
Qed.
Lemma same_path (t : node) p q o : in_order (flatten t) -> node_at t p = Some (Tok o) -> node_at t q = Some (Tok o) -> p = q.
Proof.
  revert t q. induction p as [| i p IH]; intros t q HO Hp Hq.
  - cbn in Hp. injection Hp as ->. destruct q as [| [|] q]; [reflexivity | discriminate | discriminate].
  - destruct q as [| e q]; [cbn in Hq; injection Hq as ->; destruct i; discriminate |]. cbn [node_at] in Hp, Hq. destruct t as [u | l cs]; [destruct i; discriminate |]. cbn [children] in *.
    destruct (nth_error cs i) as [c |] eqn:Ei; [| discriminate]. destruct (nth_error cs e) as [c' |] eqn:Ee; [| discriminate].
    assert (Hto : k_text o <> []). { destruct HO as [_ HO]. rewrite Forall_forall in HO. apply HO. apply (tok_in (Ctx l cs) (i :: p)). cbn. now rewrite Ei. }
    destruct (Nat.lt_trichotomy i e) as [H | [H | H]].
    + pose proof (order_children l cs e i c' c o o HO Ee Ei (tok_in _ _ _ Hq) (tok_in _ _ _ Hp) H) as G. unfold k_end in G. destruct (k_text o); [congruence |]. cbn in G. lia.
    + subst e. rewrite Ei in Ee. injection Ee as <-. f_equal. apply (IH c); [| exact Hp | exact Hq]. rewrite flatten_ctx in HO. apply nth_error_split in Ei as (x & y & -> & _). rewrite flat_app, flat_cons in HO. apply in_order_app in HO as (_ & HO & _). now apply in_order_app in HO.
    + pose proof (order_children l cs i e c c' o o HO Ei Ee (tok_in _ _ _ Hp) (tok_in _ _ _ Hq) H) as G. unfold k_end in G. destruct (k_text o); [congruence |]. cbn in G. lia.
Qed.
Lemma until_ok trees k p q (t : node) s o : nth_error trees k = Some t -> wf_children (children t) -> node_at t p = Some (Tok s) -> node_at t q = Some (Tok o) -> p <> [] -> q <> [] ->
  forward_until_including trees (k, p) s (k, q) o = Some (filter (fun x => (k_pos s <=? k_pos x) && (k_pos x <=? k_pos o)) (flatten t)).
Proof.
  intros Ht Hwf Hs Ho Hp Hq. assert (HO : in_order (flatten t)) by (destruct t as [u | lt ct]; [destruct p as [| [|] p]; [congruence | discriminate | discriminate] | rewrite flatten_ctx; exact (proj2 Hwf)]).
  assert (Hdec : (p = q \/ k_pos s < k_pos o) \/ p <> q /\ k_pos o <= k_pos s) by (destruct (list_eq_dec Nat.eq_dec p q); [tauto |]; destruct (Nat.ltb_spec (k_pos s) (k_pos o)); tauto).
  pose proof (pre_suf _ _ _ _ _ Hs) as Es. pose proof (pre_suf _ _ _ _ _ Ho) as Eo. cbn [TreeSpec.flatten app] in Es, Eo.
  destruct Hdec as [Hpos | [Hne Hpos]].
  - destruct (trail_ok trees k p q t s o Ht Hwf Hs Ho Hp Hq Hpos) as (d & l & cs & H1 & H2 & H3 & H4).
    assert (Hcs : exists c cs', cs = c :: cs'). { destruct cs as [| c cs']; [| now exists c, cs']. exfalso. rewrite <- (firstn_skipn d p), (node_at_app _ _ t), H3 in Hs. destruct (skipn d p) as [| [|] r]; discriminate. }
    destruct Hcs as (c0 & cs' & Ecs). unfold forward_until_including, token_range. rewrite H1. unfold node_of. cbn [fst snd]. rewrite Ht, H3, Ecs. cbv iota. rewrite Ht.
    assert (Hsp : node_at (Ctx l cs) (skipn d p) = Some (Tok s)) by (rewrite <- (firstn_skipn d p), (node_at_app _ _ t), H3 in Hs; exact Hs).
    assert (Hoq : node_at (Ctx l cs) (skipn d q) = Some (Tok o)) by (rewrite <- (firstn_skipn d q), (node_at_app _ _ t), <- H2, H3 in Ho; exact Ho).
    destruct (range_tokens_end L A t (firstn d p) l cs (skipn d p) (skipn d q) s o H3) as (R & HR & Hpre).
    + right. split; [exact Hsp |]. intros E. rewrite E in H4. exact H4.
    + exact Hoq.
    + destruct (skipn d p) as [| i p']; [destruct H4 |]. destruct (skipn d q) as [| e q']; [destruct H4 |]. destruct H4 as [H4 | (-> & -> & H4)]; [now left | right; auto].
    + rewrite HR. f_equal.
      assert (Efl : flatten t = pre_toks L A t p ++ R ++ suf_toks L A t q).
      { rewrite Eo. rewrite <- (firstn_skipn d q) at 1. rewrite (pre_toks_app _ _ t (firstn d q) (skipn d q) (Ctx l cs)) by (rewrite <- H2; exact H3).
        rewrite <- (firstn_skipn d p) at 1. rewrite (pre_toks_app _ _ t (firstn d p) (skipn d p) (Ctx l cs) H3). rewrite <- H2. rewrite <- !app_assoc. f_equal. rewrite (app_assoc _ R), Hpre, <- app_assoc. reflexivity. }
      assert (Hends : Forall (fun x => k_pos s <= k_pos x) R /\ Forall (fun x => k_pos x <= k_pos o) R).
      { split; apply Forall_forall; intros x Hx.
        - assert (E : R ++ suf_toks L A t q = s :: suf_toks L A t p) by (apply (app_inv_head (pre_toks L A t p)); rewrite <- Efl; exact Es).
          assert (Hin : In x (s :: suf_toks L A t p)) by (rewrite <- E; apply in_or_app; now left). destruct Hin as [<- | Hin]; [lia |]. rewrite Es in HO. pose proof (in_order_after _ _ _ _ _ HO Hin) as G. unfold k_end in G. lia.
        - assert (E : pre_toks L A t p ++ R = pre_toks L A t q ++ [o]) by (apply (app_inv_tail (suf_toks L A t q)); rewrite <- !app_assoc, <- Efl; exact Eo).
          assert (Hin : In x (pre_toks L A t q ++ [o])) by (rewrite <- E; apply in_or_app; now right). apply in_app_or in Hin as [Hin | [<- | []]]; [| lia]. rewrite Eo in HO. pose proof (in_order_before _ _ _ _ _ HO Hin) as G. unfold k_end in G. lia. }
      rewrite Efl. symmetry. apply (filter_split A).
      * apply Forall_forall. intros x Hx. rewrite Es in HO. pose proof (in_order_before _ _ _ _ _ HO Hx) as G. assert (Hxt : k_text x <> []).
        { destruct HO as [_ HO]. rewrite Forall_forall in HO. apply HO. apply in_or_app. now left. }
        unfold k_end in G. destruct (k_text x); [congruence |]. cbn [length] in G. lia.
      * destruct Hends as [G1 G2]. rewrite Forall_forall in G1, G2. apply Forall_forall. intros x Hx. specialize (G1 x Hx). specialize (G2 x Hx). lia.
      * apply Forall_forall. intros x Hx. pose proof HO as HO'. rewrite Eo in HO. pose proof (in_order_after _ _ _ _ _ HO Hx) as G. assert (Hxt : k_text o <> []).
        { destruct HO as [_ HO]. rewrite Forall_forall in HO. apply HO. apply in_or_app. right. now left. }
        unfold k_end in G. destruct (k_text o); [congruence |]. cbn [length] in G. lia.
  - assert (Esame : same_node (k, q) (k, p) = false) by (destruct (same_node (k, q) (k, p)) eqn:E; [apply same_node_spec in E; congruence | reflexivity]).
    unfold forward_until_including, token_range, common_ancestor_with_trail. rewrite Esame. assert (El : (k_pos s <? k_pos o) = false) by lia. rewrite El. f_equal. symmetry.
    assert (Hlt : k_pos o < k_pos s).
    { destruct (Nat.eq_dec (k_pos o) (k_pos s)) as [Eq |]; [| lia]. exfalso. pose proof HO as HO0.
      assert (Hso : In s (flatten t)) by exact (tok_in _ _ _ Hs). rewrite Eo in Hso, HO. assert (Hto : k_text o <> []) by (destruct HO as [_ HO]; rewrite Forall_forall in HO; apply HO; apply in_or_app; right; now left).
      assert (Hts : k_text s <> []) by (destruct HO as [_ HO]; rewrite Forall_forall in HO; apply HO; exact Hso).
      apply in_app_or in Hso as [Hso | [<- | Hso]].
      - pose proof (in_order_before _ _ _ _ _ HO Hso) as G. unfold k_end in G. destruct (k_text s); [congruence |]. cbn in G. lia.
      - apply Hne. exact (same_path t p q o HO0 Hs Ho).
      - pose proof (in_order_after _ _ _ _ _ HO Hso) as G. unfold k_end in G. destruct (k_text o); [congruence |]. cbn in G. lia. }
    clear - Hlt. induction (flatten t) as [| x l IH]; [reflexivity |]. cbn [filter]. assert (E : (k_pos s <=? k_pos x) && (k_pos x <=? k_pos o) = false) by lia. now rewrite E.
Qed.
Lemma range_trail trees k p q (t : node) s o : nth_error trees k = Some t -> wf_children (children t) -> node_at t p = Some (Tok s) -> node_at t q = Some (Tok o) -> p <> [] -> q <> [] -> p = q \/ k_pos s < k_pos o ->
  exists r, token_range trees (k, p) s (k, q) o = Some (Some (k, r)) /\ common_ancestor trees (k, p) (k, q) = Some (k, r_path r)
    /\ r_path r ++ r_start r = p /\ r_path r ++ r_end r = q /\ range_pos t r = Some (k_pos s) /\ range_end t r = Some (k_end o).
Proof.
  intros Ht Hwf Hs Ho Hp Hq Hpos. destruct (trail_ok trees k p q t s o Ht Hwf Hs Ho Hp Hq Hpos) as (d & l & cs & H1 & H2 & H3 & H4).
  assert (Hcs : exists c cs', cs = c :: cs'). { destruct cs as [| c cs']; [| now exists c, cs']. exfalso. rewrite <- (firstn_skipn d p), (node_at_app _ _ t), H3 in Hs. destruct (skipn d p) as [| [|] r]; discriminate. }
  destruct Hcs as (c0 & cs' & Ecs). exists (Range (firstn d p) (skipn d p) (skipn d q)). cbn [r_path r_start r_end]. unfold range_pos, range_end. cbn [r_path r_start r_end]. rewrite H2 at 4 6. rewrite !firstn_skipn, Hs, Ho.
  split; [unfold token_range; rewrite H1; unfold node_of; cbn [fst snd]; rewrite Ht, H3, Ecs; reflexivity |]. split; [| auto].
  assert (Hns : node_of trees (k, p) = Some (Tok s)) by (unfold node_of; cbn [fst snd]; now rewrite Ht). assert (Hno : node_of trees (k, q) = Some (Tok o)) by (unfold node_of; cbn [fst snd]; now rewrite Ht).
  pose proof (common_ok trees (k, p) (k, q) _ _ Hns Hno) as G. assert (Hctx : is_context trees (k, firstn d p) = true) by (unfold is_context, node_of; cbn [fst snd]; now rewrite Ht, H3).
  assert (Hab : forall r, firstn d r = firstn d p -> skipn d r <> [] -> at_or_above (k, firstn d p) (k, r)).
  { intros r E Hr. right. split; [reflexivity |]. cbn [snd]. exists (skipn d r). split; [exact Hr |]. rewrite <- E. symmetry. apply firstn_skipn. }
  assert (Hsp : skipn d p <> []) by (intros E; rewrite E in H4; exact H4). assert (Hsq : skipn d q <> []) by (intros E; rewrite E in H4; destruct (skipn d p); exact H4).
  pose proof (Hab p eq_refl Hsp) as A1. pose proof (Hab q (eq_sym H2) Hsq) as A2. destruct (common_ancestor trees (k, p) (k, q)) as [c |]; [| exfalso; exact (G _ Hctx A1 A2)].
  destruct G as (G1 & G2 & G3 & G4). specialize (G4 _ Hctx A1 A2). destruct G4 as [-> | G4]; [reflexivity |]. exfalso.
  assert (Hnt : forall r u, node_of trees (k, r) = Some (Tok u) -> at_or_above c (k, r) -> exists m, m <> [] /\ r = snd c ++ m).
  { intros r u Hu [-> | (_ & m & Hm & E)]; [unfold is_context in G1; rewrite Hu in G1; discriminate | exists m; auto]. }
  destruct (Hnt p s Hns G2) as (m1 & Hm1 & E1). destruct (Hnt q o Hno G3) as (m2 & Hm2 & E2). destruct G4 as (_ & r & Hr & Er). cbn [snd] in Er.
  destruct r as [| x r]; [congruence |]. rewrite Er in E1, E2. rewrite <- app_assoc in E1, E2. cbn [app] in E1, E2.
  assert (F1 : skipn d p = x :: r ++ m1) by (apply (app_inv_head (firstn d p)); rewrite firstn_skipn; exact E1).
  assert (F2 : skipn d q = x :: r ++ m2) by (apply (app_inv_head (firstn d q)); rewrite firstn_skipn, <- H2; exact E2).
  rewrite F1, F2 in H4. destruct H4 as [H4 | (H4 & _)]; [lia |]. apply app_eq_nil in H4 as [_ ->]. congruence.
Qed.
Lemma until_other trees k k' p q (t t' : node) s o : k <> k' -> nth_error trees k = Some t -> nth_error trees k' = Some t' -> wf_children (children t) -> wf_children (children t') -> node_at t p = Some (Tok s) -> node_at t' q = Some (Tok o) -> p <> [] ->
  token_range trees (k, p) s (k', q) o = Some None.
Proof.
  intros Hk Ht Ht' Hwf Hwf' Hs Ho Hp. enough (E0 : common_ancestor_with_trail trees (k, p) s (k', q) o = Some None) by (unfold token_range; now rewrite E0). unfold common_ancestor_with_trail. assert (Esame : same_node (k', q) (k, p) = false) by (destruct (same_node (k', q) (k, p)) eqn:E; [apply same_node_spec in E; congruence | reflexivity]).
  rewrite Esame. destruct (k_pos s <? k_pos o); [| reflexivity]. cbn [snd]. rewrite !ancestors_none.
  rewrite (all_opt_map _ (fun d => ((k, firstn d p), nth d p 0))) by (intros d Hd; apply in_rev_seq in Hd; apply (with_index_ok trees k p t d _ Ht Hwf Hs); lia).
  set (al := map (fun d => ((k, firstn d p), nth d p 0)) (rev (seq 0 (length p)))).
  assert (Hal : al <> []) by (unfold al; intros E; apply (f_equal (@length _)) in E; rewrite map_length, rev_length, seq_length in E; destruct p; [congruence | discriminate]).
  assert (Hf : Forall (fun a => fst a = k) (map fst al)). { apply Forall_forall. intros a Ha. apply in_map_iff in Ha as (x & <- & Hx). unfold al in Hx. apply in_map_iff in Hx as (d & <- & _). reflexivity. }
  pose proof (loop_other trees k k' q t' _ (map fst al) (map snd al) (length q) [] Hk Hf Ht' Hwf' Ho (le_n _)) as G. destruct al as [| a al']; [congruence |]. exact G.
Qed.
End Proofs.
