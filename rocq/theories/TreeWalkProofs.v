(** Proofs about walking through trees: indices, iteration, groups, copies. *)
From Verif Require Import Base BaseFacts TargetModel LexerModel LexerSpec TreeModel TreeSpec TreeProofs.
From Coq Require Import ZArith ZifyBool.

Section Proofs.
Variables L A : Type.
Notation node := (node L A).
Notation tok := (tok A).
Implicit Types (n c : node) (cs ns : list node) (t : tok) (ts : list tok).

(** ** parent_index *)

Lemma wf_pos_lt cs i j c d : wf_children cs -> i < j -> nth_error cs i = Some c -> nth_error cs j = Some d ->
  n_pos c < n_pos d.
Proof.
  intros Hwf Hij Hi Hj.
  destruct (wf_child _ _ _ _ _ Hwf Hi) as [Fc Oc]. destruct (wf_child _ _ _ _ _ Hwf Hj) as [Fd Od].
  destruct Hwf as [HF HO]. destruct (nth_split2 _ _ _ _ _ _ _ Hij Hi Hj) as (u & v & w & E).
  rewrite E, flat_app, flat_cons, flat_app, flat_cons in HO.
  apply in_order_app in HO as (_ & HO & _). apply in_order_app in HO as (_ & _ & HO).
  unfold n_pos. rewrite !first_token_spec by assumption.
  apply full_flatten in Fc, Fd.
  destruct (flatten c) as [|x xs]; [congruence|]. destruct (flatten d) as [|y ys]; [congruence|]. simpl.
  assert (k_pos x < k_end x) by (apply (in_order_text _ _ _ Oc); left; reflexivity).
  assert (k_end x <= k_pos y).
  { apply HO; [left; reflexivity|]. apply in_or_app; right; left; reflexivity. }
  lia.
Qed.

Lemma parent_index_ok cs self : wf_children cs -> self < length cs -> parent_index cs self = Some self.
Proof.
  intros Hwf Hs. unfold parent_index.
  destruct (nth_error cs self) as [n|] eqn:En; [|apply nth_error_None in En; lia].
  assert (G : forall fuel lo hi, lo <= self < hi -> hi <= length cs -> hi - lo < fuel ->
              parent_index_loop cs self (n_pos n) fuel lo hi = Some self).
  { induction fuel as [|fuel IH]; intros lo hi H1 H2 H3; [lia|]. cbn [parent_index_loop].
    destruct (lo <? hi) eqn:E; [|lia].
    assert (Hmid : lo <= (lo + hi) / 2 < hi).
    { split; [apply Nat.div_le_lower_bound; lia|apply Nat.div_lt_upper_bound; lia]. }
    cbv zeta. set (mid := (lo + hi) / 2) in *.
    destruct (nth_error cs mid) as [m|] eqn:Em; [|apply nth_error_None in Em; lia].
    destruct (lt_eq_lt_dec mid self) as [[Hlt|Heq]|Hgt].
    - pose proof (wf_pos_lt _ _ _ _ _ Hwf Hlt Em En). destruct (n_pos m <? n_pos n) eqn:El; [|lia].
      apply IH; lia.
    - rewrite Heq in *. rewrite En in Em. injection Em as <-.
      rewrite Nat.ltb_irrefl, Nat.eqb_refl. reflexivity.
    - pose proof (wf_pos_lt _ _ _ _ _ Hwf Hgt En Em).
      destruct (n_pos m <? n_pos n) eqn:El; [lia|]. destruct (mid =? self) eqn:Ee; [lia|].
      apply IH; lia. }
  apply G; lia.
Qed.

(** ** Iterating over tokens *)

Definition rflat (rv : bool) (ns : list node) : list tok :=
  concat (map (fun n => if rv then rev (flatten n) else flatten n) ns).

Lemma rflat_false ns : rflat false ns = flat ns.
Proof. reflexivity. Qed.

Lemma rflat_rev ns : rflat true (rev ns) = rev (flat ns).
Proof.
  unfold rflat, flat. induction ns as [|n ns IH]; [reflexivity|]. simpl.
  rewrite map_app, concat_app, IH, rev_app_distr. simpl. rewrite app_nil_r. reflexivity.
Qed.

Lemma rflat_order rv cs : rflat rv (if rv then rev cs else cs) = if rv then rev (flat cs) else flat cs.
Proof. destruct rv; [apply rflat_rev|apply rflat_false]. Qed.

Lemma rflat_cons rv n ns :
  rflat rv (n :: ns) = (if rv then rev (flatten n) else flatten n) ++ rflat rv ns.
Proof. reflexivity. Qed.

Definition cost (ns : list node) : nat := list_sum (map (fun n => 2 * size n) ns).

Lemma cost_rev ns : cost (rev ns) = cost ns.
Proof.
  unfold cost. rewrite map_rev. induction (map (fun n => 2 * size n) ns) as [|x l IH]; [reflexivity|].
  simpl. rewrite list_sum_app. simpl. lia.
Qed.

Lemma cost_ctx l cs : 2 * size (Ctx l cs) = 2 + cost cs.
Proof.
  rewrite size_ctx. unfold cost. induction cs as [|c cs IH]; simpl in *; [reflexivity|]. lia.
Qed.

Lemma cost_cons n ns : cost (n :: ns) = 2 * size n + cost ns.
Proof. reflexivity. Qed.

Lemma tokens_loop_spec rv : forall fuel stack gen,
  cost gen + list_sum (map (fun g => S (cost g)) stack) < fuel ->
  tokens_loop rv fuel stack gen = Some (rflat rv gen ++ concat (map (rflat rv) stack)).
Proof.
  induction fuel as [|fuel IH]; intros stack gen H; [lia|]. cbn [tokens_loop].
  destruct gen as [|[t|l cs] gen].
  - destruct stack as [|g stack]; [reflexivity|]. rewrite IH; [reflexivity|].
    simpl in H. lia.
  - rewrite cost_cons in H. rewrite IH by (simpl in H |- *; lia).
    unfold rflat. simpl. destruct rv; reflexivity.
  - rewrite cost_cons, cost_ctx in H. rewrite IH.
    + rewrite rflat_order, rflat_cons, flatten_ctx, <- app_assoc. reflexivity.
    + replace (cost (if rv then rev cs else cs)) with (cost cs) by (destruct rv; [rewrite cost_rev|]; reflexivity).
      simpl. lia.
Qed.

Lemma c_tokens_spec rv l cs : c_tokens rv l cs = Some (if rv then rev (flat cs) else flat cs).
Proof.
  unfold c_tokens. rewrite tokens_loop_spec.
  - rewrite rflat_order, app_nil_r. reflexivity.
  - rewrite cost_ctx. destruct rv; [rewrite cost_rev|]; simpl; lia.
Qed.

Lemma u_tokens_in_spec rv ns : u_tokens_in rv ns = Some (rflat rv ns).
Proof.
  induction ns as [|n ns IH]; [reflexivity|]. cbn [u_tokens_in]. rewrite IH. unfold rflat. simpl.
  destruct n as [t|l cs].
  - destruct rv; reflexivity.
  - rewrite c_tokens_spec. fold (flatten (Ctx l cs)). rewrite <- (flatten_ctx _ _ l). reflexivity.
Qed.

Lemma u_tokens_spec rv ns : u_tokens rv ns = Some (if rv then rev (flat ns) else flat ns).
Proof. unfold u_tokens. rewrite u_tokens_in_spec, rflat_order. reflexivity. Qed.

(** ** Ancestors *)

Lemma ancestors_none_cons i path : ancestors (i :: path) None = map S (ancestors path None) ++ [0].
Proof.
  unfold ancestors. simpl length. generalize (length path) as d. intros d.
  assert (G : forall d, ancestors_from (S d) (i :: path) None = map S (ancestors_from d path None) ++ [0]).
  { clear d. induction d as [|d IH]; [reflexivity|].
    change (ancestors_from (S (S d)) (i :: path) None) with (S d :: ancestors_from (S d) (i :: path) None).
    rewrite IH. reflexivity. }
  apply G.
Qed.

Lemma path_eqb_refl p : path_eqb p p = true.
Proof. apply list_eqb_spec; [intros; apply Nat.eqb_eq|reflexivity]. Qed.

Lemma path_eqb_cons i a b : path_eqb (i :: a) (i :: b) = path_eqb a b.
Proof. unfold path_eqb. simpl. rewrite Nat.eqb_refl. reflexivity. Qed.

(** [upto] is the child of the start node that is on the path. *)
Lemma ancestors_upto_1 i path : ancestors (i :: path) (Some [i]) = map S (ancestors path None).
Proof.
  unfold ancestors. simpl. generalize (length path) as d.
  assert (G : forall d, ancestors_from (S d) (i :: path) (Some []) = map S (ancestors_from d path None)).
  { induction d as [|d IH]; [reflexivity|].
    change (ancestors_from (S (S d)) (i :: path) (Some []))
      with (S d :: ancestors_from (S d) (i :: path) (Some [])).
    rewrite IH. reflexivity. }
  apply G.
Qed.

Lemma ancestors_upto_cons i j u path :
  length u < length path -> firstn (S (length u)) path = j :: u ->
  ancestors (i :: path) (Some (i :: j :: u)) = map S (ancestors path (Some (j :: u))).
Proof.
  intros Hlen Hpre. unfold ancestors.
  change (removelast (i :: j :: u)) with (i :: removelast (j :: u)).
  assert (Hd : length u < length path) by assumption.
  assert (Hstop : firstn (length u) path = removelast (j :: u)).
  { rewrite <- Hpre. rewrite removelast_firstn by lia. reflexivity. }
  simpl length. revert Hd. generalize (length path) as d.
  assert (G : forall d, length u < d ->
     ancestors_from (S d) (i :: path) (Some (i :: removelast (j :: u)))
     = map S (ancestors_from d path (Some (removelast (j :: u))))).
  { induction d as [|d IH]; intros Hd; [lia|].
    cbn [ancestors_from]. change (firstn (S d) (i :: path)) with (i :: firstn d path).
    rewrite path_eqb_cons.
    destruct (path_eqb (firstn d path) (removelast (j :: u))) eqn:E; [reflexivity|].
    destruct (Nat.eq_dec d (length u)) as [->|Hne].
    - rewrite Hstop, path_eqb_refl in E. discriminate.
    - simpl map. f_equal. apply IH. lia. }
  apply G.
Qed.

(** ** Forward and backward *)

Lemma concat_opt_app {T} (a b : list (option (list T))) :
  concat_opt (a ++ b) = match concat_opt a, concat_opt b with Some x, Some y => Some (x ++ y) | _, _ => None end.
Proof.
  induction a as [|x a IH]; simpl.
  - destruct (concat_opt b); reflexivity.
  - rewrite IH. destruct x; [|reflexivity]. destruct (concat_opt a); [|reflexivity].
    destruct (concat_opt b); [|reflexivity]. rewrite app_assoc. reflexivity.
Qed.

Lemma awi_cons l cs i path d c : nth_error cs i = Some c ->
  ancestor_with_index (Ctx l cs) (i :: path) (S d) = ancestor_with_index c path d.
Proof. intros H. unfold ancestor_with_index. simpl. rewrite H. reflexivity. Qed.

Lemma awi_0 l cs i path : wf_children cs -> i < length cs ->
  ancestor_with_index (Ctx l cs) (i :: path) 0 = Some (cs, i).
Proof.
  intros Hwf Hi. unfold ancestor_with_index. simpl. rewrite parent_index_ok by assumption. reflexivity.
Qed.

Definition wf_node n : Prop := wf_children (children n).

Lemma wf_node_child cs i c : wf_children cs -> nth_error cs i = Some c -> wf_node c.
Proof.
  intros Hwf Hi. destruct (wf_child _ _ _ _ _ Hwf Hi) as [Fc Oc].
  destruct c as [t|l cs']; [split; constructor; constructor|]. apply (wf_ctx _ _ l); assumption.
Qed.

Lemma flatten_children n i c : nth_error (children n) i = Some c ->
  flatten n = flat (firstn i (children n)) ++ flatten c ++ flat (skipn (S i) (children n)).
Proof.
  destruct n as [t|l cs]; simpl children; [destruct i; discriminate|]. intros H.
  rewrite flatten_ctx. rewrite (nth_split _ _ _ _ _ H) at 1. rewrite flat_app, flat_cons. reflexivity.
Qed.

Lemma walk_root root path n : wf_node root -> node_at root path = Some n ->
  exists f b, forward root path None = Some f /\ backward root path None = Some b /\
    flatten root = rev b ++ flatten n ++ f.
Proof.
  revert root; induction path as [|i path IH]; intros root Hwf Hn.
  - simpl in Hn. injection Hn as ->. exists [], []. simpl. rewrite app_nil_r. auto.
  - simpl in Hn. destruct (nth_error (children root) i) as [c|] eqn:Ei; [|discriminate].
    pose proof (wf_node_child _ _ _ Hwf Ei) as Hc.
    destruct (IH c Hc Hn) as (f & b & Hf & Hb & Hflat).
    assert (Hi : i < length (children root)) by (apply nth_error_Some; congruence).
    destruct root as [t|l cs]; [simpl in Hi; lia|]. simpl children in *.
    exists (f ++ flat (skipn (S i) cs)), (b ++ rev (flat (firstn i cs))).
    split; [|split].
    + unfold forward in *. rewrite ancestors_none_cons, map_app, map_map, concat_opt_app.
      erewrite map_ext; [|intros d; rewrite (awi_cons l cs i path d c Ei); reflexivity].
      rewrite Hf. cbn [map concat_opt]. rewrite awi_0 by assumption.
      rewrite u_tokens_spec, app_nil_r. replace (i + 1) with (S i) by lia. reflexivity.
    + unfold backward in *. rewrite ancestors_none_cons, map_app, map_map, concat_opt_app.
      erewrite map_ext; [|intros d; rewrite (awi_cons l cs i path d c Ei); reflexivity].
      rewrite Hb. cbn [map concat_opt]. rewrite awi_0 by assumption.
      destruct (i =? 0) eqn:E0.
      * apply Nat.eqb_eq in E0 as ->. reflexivity.
      * rewrite u_tokens_spec, app_nil_r. reflexivity.
    + rewrite (flatten_children (Ctx l cs) i c Ei). simpl children. rewrite Hflat, rev_app_distr, rev_involutive.
      rewrite <- !app_assoc. reflexivity.
Qed.

Lemma walk_upto root u path m n : wf_node root -> node_at root u = Some m -> node_at m path = Some n ->
  path <> [] ->
  exists f b, forward root (u ++ path) (Some u) = Some f /\ backward root (u ++ path) (Some u) = Some b /\
    flatten m = rev b ++ flatten n ++ f.
Proof.
  intros Hwf Hm Hn Hp. revert root Hwf Hm; induction u as [|i u IH]; intros root Hwf Hm.
  - simpl in Hm. injection Hm as ->. apply walk_root; assumption.
  - simpl in Hm. destruct (nth_error (children root) i) as [c|] eqn:Ei; [|discriminate].
    pose proof (wf_node_child _ _ _ Hwf Ei) as Hc.
    assert (Hi : i < length (children root)) by (apply nth_error_Some; congruence).
    destruct root as [t|l cs]; [simpl in Hi; lia|]. simpl children in *.
    assert (Hanc : ancestors (i :: u ++ path) (Some (i :: u))
                   = map S (ancestors (u ++ path) (match u with [] => None | _ => Some u end))).
    { destruct u as [|j u]; [apply ancestors_upto_1|].
      apply ancestors_upto_cons.
      - rewrite app_length. simpl. lia.
      - simpl. rewrite firstn_app, Nat.sub_diag, firstn_all, app_nil_r. reflexivity. }
    destruct (IH c Hc Hm) as (f & b & Hf & Hb & Hflat).
    exists f, b. unfold forward, backward in *. simpl app.
    assert (Hsame : ancestors (u ++ path) (match u with [] => None | _ => Some u end)
                    = ancestors (u ++ path) (Some u)) by (destruct u; reflexivity).
    rewrite Hanc, Hsame, !map_map.
    split; [|split; [|assumption]].
    + rewrite <- Hf. f_equal. apply map_ext. intros d. rewrite (awi_cons l cs i _ d c Ei). reflexivity.
    + rewrite <- Hb. f_equal. apply map_ext. intros d. rewrite (awi_cons l cs i _ d c Ei). reflexivity.
Qed.

(** ** Groups *)

Lemma group_end_loop_spec cs g pre post k : cs = pre ++ map Tok g ++ post -> is_group g ->
  k < length g -> forall fuel j, j = length pre + k -> length g - k <= fuel ->
  1 <= k ->
  group_end_loop cs fuel j (length cs - 1) = Some (length pre + length g - 1).
Proof.
  intros Hcs [Hlen Hg]. intros Hk fuel; revert k Hk; induction fuel as [|fuel IH]; intros k Hk j Hj Hf Hk1; [lia|].
  cbn [group_end_loop].
  assert (Hl : length cs = length pre + length g + length post)
    by (rewrite Hcs, !app_length, map_length; lia).
  destruct (j <? length cs - 1) eqn:E.
  - assert (Hnth : exists t, nth_error cs j = Some (Tok t) /\ nth_error g k = Some t).
    { destruct (nth_error g k) as [t|] eqn:Et; [|apply nth_error_None in Et; lia].
      exists t. split; [|reflexivity]. rewrite Hcs, nth_error_app2 by lia.
      rewrite nth_error_app1 by (rewrite map_length; lia).
      replace (j - length pre) with k by lia. rewrite nth_error_map, Et. reflexivity. }
    destruct Hnth as (t & Hn & Hgt). unfold group_positive. rewrite Hn, (Hg k t Hgt).
    destruct (k =? length g - 1) eqn:Ek.
    + destruct (0 <? - Z.of_nat k)%Z eqn:Ez; [lia|]. f_equal. lia.
    + destruct (0 <? Z.of_nat k)%Z eqn:Ez; [|lia]. apply (IH (k + 1)); lia.
  - f_equal. lia.
Qed.

Lemma get_group_ok cs g pre post k t : wf_children cs -> cs = pre ++ map Tok g ++ post -> is_group g ->
  nth_error g k = Some t ->
  exists z, k_group t = Some z /\
  get_group cs (length pre + k) z = Some (map Tok g) /\
  get_group_start cs (length pre + k) z = option_map Tok (hd_error g) /\
  get_group_end cs (length pre + k) z = option_map Tok (last_opt g).
Proof.
  intros Hwf Hcs Hgr Ht. pose proof Hgr as [Hlen Hg].
  assert (Hk : k < length g) by (apply nth_error_Some; congruence).
  assert (Hl : length cs = length pre + length g + length post)
    by (rewrite Hcs, !app_length, map_length; lia).
  exists (if k =? length g - 1 then (- Z.of_nat k)%Z else Z.of_nat k).
  split; [exact (Hg k t Ht)|].
  unfold get_group, get_group_start, get_group_end.
  rewrite parent_index_ok by (assumption || lia).
  assert (Hslice : slice cs (length pre) (length pre + length g) = map Tok g).
  { unfold slice. rewrite Hcs, skipn_app, skipn_all, Nat.sub_diag. simpl.
    replace (length pre + length g - length pre) with (length (map (@Tok L A) g)) by (rewrite map_length; lia).
    rewrite firstn_app, firstn_all, Nat.sub_diag. simpl. apply app_nil_r. }
  assert (Hnth : forall j, j < length g -> nth_error cs (length pre + j) = option_map Tok (nth_error g j)).
  { intros j Hj. rewrite Hcs, nth_error_app2 by lia. rewrite nth_error_app1 by (rewrite map_length; lia).
    replace (length pre + j - length pre) with j by lia. apply nth_error_map. }
  assert (Hhd : nth_error g 0 = hd_error g) by (destruct g; reflexivity).
  assert (Hla : nth_error g (length g - 1) = last_opt g).
  { destruct (last_opt g) as [x|] eqn:El.
    - apply last_opt_some in El as (g' & ->). rewrite app_length. simpl.
      rewrite nth_error_app2 by lia. replace (length g' + 1 - 1 - length g') with 0 by lia. reflexivity.
    - apply last_opt_none in El. subst g. simpl in Hlen. lia. }
  destruct (k =? length g - 1) eqn:Ek.
  - destruct (- Z.of_nat k <? 0)%Z eqn:E1; [|lia]. destruct (0 <=? - Z.of_nat k)%Z eqn:E2; [lia|].
    split; [|split].
    + unfold py_slice. destruct (0 <=? Z.of_nat (length pre + k) + - Z.of_nat k)%Z eqn:E3; [|lia].
      rewrite <- Hslice. do 2 f_equal; lia.
    + replace (Z.of_nat (length pre + k) + - Z.of_nat k)%Z with (Z.of_nat (length pre + 0)) by lia.
      rewrite py_nth_nat, Hnth, Hhd by lia. reflexivity.
    + rewrite Hnth by lia. apply Nat.eqb_eq in Ek. rewrite Ek, Hla. reflexivity.
  - destruct (Z.of_nat k <? 0)%Z eqn:E1; [lia|]. destruct (0 <=? Z.of_nat k)%Z eqn:E2; [|lia].
    rewrite (group_end_loop_spec cs g pre post (k + 1)) by (assumption || lia).
    split; [|split].
    + unfold py_slice. destruct (0 <=? Z.of_nat (length pre + k) - Z.of_nat k)%Z eqn:E3; [|lia].
      rewrite <- Hslice. do 2 f_equal; lia.
    + replace (Z.of_nat (length pre + k) - Z.of_nat k)%Z with (Z.of_nat (length pre + 0)) by lia.
      rewrite py_nth_nat, Hnth, Hhd by lia. reflexivity.
    + replace (length pre + length g - 1) with (length pre + (length g - 1)) by lia.
      rewrite Hnth, Hla by lia. reflexivity.
Qed.

(** ** Copies *)

Fixpoint unwind (stack : list (copy_frame L A)) n : node :=
  match stack with
  | [] => n
  | (pn, pl, _) :: stack => unwind stack (Ctx pl pn)
  end.

Fixpoint frames_ok (stack : list (copy_frame L A)) n : Prop :=
  match stack with
  | [] => True
  | (pn, pl, pcopy) :: stack =>
      pcopy = firstn (length pcopy) pn /\ nth_error pn (length pcopy) = Some n /\ frames_ok stack (Ctx pl pn)
  end.

Definition frames_cost (stack : list (copy_frame L A)) : nat :=
  list_sum (map (fun '(pn, pl, pcopy) => S (cost (skipn (S (length pcopy)) pn))) stack).

Lemma skipn_nth cs i c : nth_error cs i = Some c -> skipn i cs = c :: skipn (S i) cs.
Proof.
  intros H. rewrite (nth_split _ _ _ _ _ H) at 1.
  assert (i < length cs) by (apply nth_error_Some; congruence).
  rewrite skipn_app, skipn_all2 by (rewrite firstn_length; lia).
  rewrite firstn_length, Nat.min_l, Nat.sub_diag by lia. reflexivity.
Qed.

Lemma firstn_S_nth {T} (l : list T) i x : nth_error l i = Some x -> firstn (S i) l = firstn i l ++ [x].
Proof.
  revert i; induction l as [|y l IH]; intros [|i]; simpl; try discriminate.
  - intros [= ->]; reflexivity.
  - intros H. f_equal. apply IH. assumption.
Qed.

Lemma copy_loop_spec : forall fuel stack (n : list node) l copy i,
  copy = firstn i n -> i <= length n -> frames_ok stack (Ctx l n) ->
  cost (skipn i n) + frames_cost stack < fuel ->
  copy_loop fuel stack n l copy i = Some (unwind stack (Ctx l n)).
Proof.
  induction fuel as [|fuel IH]; intros stack n l copy i Hcopy Hi Hst Hfuel; [lia|].
  cbn [copy_loop]. destruct (nth_error n i) as [[t|ml mcs]|] eqn:E.
  - rewrite IH; [reflexivity| | |assumption|].
    + replace (i + 1) with (S i) by lia. rewrite (firstn_S_nth _ _ _ E), Hcopy. destruct t; reflexivity.
    + assert (i < length n) by (apply nth_error_Some; congruence). lia.
    + rewrite (skipn_nth _ _ _ E), cost_cons in Hfuel. replace (i + 1) with (S i) by lia.
      simpl in Hfuel |- *. lia.
  - assert (Hlen : length copy = i) by (rewrite Hcopy, firstn_length; lia).
    rewrite IH; [reflexivity|reflexivity|simpl; lia| |].
    + cbn [frames_ok]. rewrite Hlen. split; [assumption|]. split; assumption.
    + rewrite (skipn_nth _ _ _ E), cost_cons, cost_ctx in Hfuel.
      unfold frames_cost. cbn [map list_sum fold_right]. rewrite Hlen. fold (list_sum).
      simpl skipn at 1. unfold frames_cost, list_sum in Hfuel |- *. lia.
  - apply nth_error_None in E. assert (i = length n) by lia. subst i.
    rewrite firstn_all in Hcopy. subst copy.
    destruct stack as [|[[pn pl] pcopy] stack]; [reflexivity|].
    cbn [frames_ok] in Hst. destruct Hst as (Hp & Hnth & Hst). cbn [unwind].
    apply IH.
    + rewrite app_length. simpl length. replace (length pcopy + 1) with (S (length pcopy)) by lia.
      rewrite (firstn_S_nth _ _ _ Hnth), <- Hp. reflexivity.
    + rewrite app_length. assert (length pcopy < length pn) by (apply nth_error_Some; congruence). simpl. lia.
    + assumption.
    + rewrite app_length. simpl length. replace (length pcopy + 1) with (S (length pcopy)) by lia.
      unfold frames_cost in Hfuel |- *. cbn [map list_sum fold_right] in Hfuel. unfold list_sum in *. lia.
Qed.

Lemma c_copy_ok l cs : c_copy l cs = Some (Ctx l cs).
Proof.
  unfold c_copy. rewrite copy_loop_spec; [reflexivity|reflexivity|lia|exact I|].
  rewrite cost_ctx. unfold frames_cost. simpl. lia.
Qed.

(** ** Height *)

Lemma height_ctx l cs : height (Ctx l cs) = list_max (map (fun c => S (height c)) cs).
Proof.
  induction cs as [|c cs IH]; [reflexivity|].
  transitivity (Nat.max (S (height c)) (height (Ctx l cs))); [reflexivity|]. rewrite IH. reflexivity.
Qed.

(** Height of the children in contexts: 0 without sub-contexts. *)
Fixpoint cheight n : nat :=
  match n with
  | Tok _ => 0
  | Ctx _ cs => S ((fix go cs := match cs with [] => 0 | c :: cs' => Nat.max (cheight c) (go cs') end) cs)
  end.
Definition cmax (cs : list node) : nat := list_max (map cheight cs).

Lemma cheight_ctx l cs : cheight (Ctx l cs) = S (cmax cs).
Proof.
  cbn [cheight]. f_equal. induction cs as [|c cs IH]; [reflexivity|]. rewrite IH. reflexivity.
Qed.

Lemma cmax_cons c cs : cmax (c :: cs) = Nat.max (cheight c) (cmax cs).
Proof. reflexivity. Qed.

Definition hframes_cost (stack : list (list node * nat)) : nat :=
  list_sum (map (fun '(pn, pi) => S (cost (skipn (S pi) pn))) stack).

Fixpoint hrest (stack : list (list node * nat)) : nat :=
  match stack with
  | [] => 0
  | (pn, pi) :: stack => Nat.max (let m := cmax (skipn (S pi) pn) in if m =? 0 then 0 else length stack + m) (hrest stack)
  end.

Lemma height_loop_spec : forall fuel stack (n : list node) i h,
  i <= length n -> Forall (fun '(pn, pi) => pi < length pn) stack ->
  cost (skipn i n) + hframes_cost stack < fuel ->
  length stack <= h ->
  height_loop fuel stack n i h =
    Some (Nat.max (Nat.max h (length stack + cmax (skipn i n))) (hrest stack) + 1).
Proof.
  induction fuel as [|fuel IH]; intros stack n i h Hi Hst Hfuel Hh; [lia|].
  cbn [height_loop]. destruct (nth_error n i) as [[t|ml mcs]|] eqn:E.
  - assert (i < length n) by (apply nth_error_Some; congruence).
    rewrite IH; [|lia|assumption| |assumption].
    + rewrite (skipn_nth _ _ _ E), cmax_cons. replace (i + 1) with (S i) by lia. reflexivity.
    + rewrite (skipn_nth _ _ _ E), cost_cons in Hfuel. replace (i + 1) with (S i) by lia.
      simpl in Hfuel |- *. lia.
  - assert (i < length n) by (apply nth_error_Some; congruence).
    rewrite (skipn_nth _ _ _ E) in Hfuel |- *. rewrite cost_cons, cost_ctx in Hfuel.
    rewrite cmax_cons, cheight_ctx. rewrite IH; [|lia| | |].
    + cbn [hrest length]. change (skipn 0 mcs) with mcs. f_equal.
      set (m := cmax (skipn (S i) n)). cbv zeta. destruct (m =? 0) eqn:Em; lia.
    + constructor; assumption.
    + unfold hframes_cost in *. cbn [map list_sum fold_right]. unfold list_sum in *.
      change (skipn 0 mcs) with mcs. lia.
    + simpl. lia.
  - apply nth_error_None in E. assert (i = length n) by lia. subst i. rewrite skipn_all in *.
    destruct stack as [|[pn pi] stack].
    + cbn [length hrest]. change (cmax []) with 0. f_equal. lia.
    + inversion Hst; subst. rewrite IH; [|lia|assumption| |simpl in Hh; lia].
      * cbn [hrest length]. replace (pi + 1) with (S pi) by lia. change (cmax []) with 0.
        cbn [length] in Hh. set (m := cmax (skipn (S pi) pn)). cbv zeta. f_equal.
        destruct (m =? 0) eqn:Em; lia.
      * unfold hframes_cost in *. cbn [map list_sum fold_right] in Hfuel. unfold list_sum in *.
        replace (pi + 1) with (S pi) by lia. lia.
Qed.

Lemma height_cheight n : full n -> height n = match n with Tok _ => 0 | Ctx _ _ => cheight n end.
Proof.
  induction n as [t|l cs IH] using node_ind'; intros H; [reflexivity|].
  apply full_children in H as [Hne HF]. rewrite height_ctx, cheight_ctx. unfold cmax.
  assert (G : forall ds, Forall full ds ->
    Forall (fun n => full n -> height n = match n with Tok _ => 0 | Ctx _ _ => cheight n end) ds ->
    ds <> [] ->
    list_max (map (fun c => S (height c)) ds) = S (list_max (map cheight ds))).
  { induction ds as [|d ds IHds]; intros F1 F2 Hds; [congruence|].
    inversion F1; inversion F2; subst. cbn [map list_max fold_right]. fold (list_max).
    assert (Hd : height d = cheight d) by (rewrite H5 by assumption; destruct d; reflexivity).
    rewrite Hd. destruct ds as [|e ds]; [simpl; lia|].
    unfold list_max in *. rewrite IHds by (assumption || discriminate). lia. }
  apply G; assumption.
Qed.

Lemma c_height_ok l cs : Forall full cs -> c_height l cs = Some (height (Ctx l cs)).
Proof.
  intros HF. destruct cs as [|c cs]; [reflexivity|].
  rewrite height_cheight by (constructor; [discriminate|assumption]).
  rewrite cheight_ctx. unfold c_height. rewrite height_loop_spec.
  - cbn [length hrest]. change (skipn 0 (c :: cs)) with (c :: cs). f_equal. lia.
  - lia.
  - constructor.
  - rewrite cost_ctx. unfold hframes_cost. simpl. lia.
  - simpl. lia.
Qed.

End Proofs.
