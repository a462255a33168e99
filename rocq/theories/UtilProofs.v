(** Proofs about the functions of util.py. *)
From Verif Require Import Base UtilModel UtilSpec.
From Coq Require Import ZArith ZifyBool.

(** ** fix_boundaries *)
Section Ranges.
Context {R : Type} (eqb : R -> R -> bool) (eqb_ok : forall a b, eqb a b = true <-> a = b).

Definition clip (start : nat) (end_ : option nat) (i : item R) : item R :=
  Item (max start (i_pos i)) (match end_ with Some e => min e (i_end i) | None => i_end i end) (i_rest i).

Lemma clip_id start end_ i : inside start end_ i -> clip start end_ i = i.
Proof.
  destruct i as [p e r]. unfold inside, clip. cbn [i_pos i_end i_rest]. intros [H1 H2]. rewrite Nat.max_r by lia. destruct end_ as [x|]; [rewrite Nat.min_r by lia|]; reflexivity.
Qed.

Lemma fix_last_clip start end_ : forall l i, start <= i_pos i -> ordered (i :: l) -> Forall (overlaps start end_) (i :: l) ->
  fix_last i l end_ = map (clip start end_) (i :: l).
Proof.
  induction l as [|j l IH]; intros i Hp Ho Hf.
  - cbn [fix_last map]. destruct i as [p e r]. unfold clip. cbn [i_pos i_end i_rest] in *. rewrite Nat.max_r by lia.
    destruct end_ as [x|]; [|reflexivity]. destruct (x <? e) eqn:E; [rewrite Nat.min_l by lia|rewrite Nat.min_r by lia]; reflexivity.
  - destruct Ho as (H1 & H2 & H3). inversion Hf as [|? ? F1 F2]; subst. inversion F2 as [|? ? F3 F4]; subst. cbn [fix_last map].
    specialize (H2 j (or_introl eq_refl)) as Hj. rewrite (clip_id start end_ i).
    + f_equal. apply (IH j); [destruct F3 as [F3 _]; lia|exact H3|exact F2].
    + split; [exact Hp|]. destruct end_ as [x|]; [|exact I]. destruct F3 as [_ F3]. lia.
Qed.

Lemma fix_boundaries_clip l start end_ : (forall e, end_ = Some e -> start < e) -> ordered l -> Forall (overlaps start end_) l ->
  fix_boundaries l start end_ = map (clip start end_) l.
Proof.
  intros Hw Ho Hf.
  assert (Hg : match l with [] => [] | i :: stream => fix_last (if i_pos i <? start then Item start (i_end i) (i_rest i) else i) stream end_ end = map (clip start end_) l).
  { destruct l as [|i l]; [reflexivity|]. set (i' := if i_pos i <? start then _ else i). destruct Ho as (H1 & H2 & H3). inversion Hf as [|? ? F1 F2]; subst.
    assert (Hi : start <= i_pos i' /\ i_end i' = i_end i /\ clip start end_ i' = clip start end_ i /\ i_pos i' < i_end i').
    { unfold i'. destruct F1 as [F1 _]. destruct i as [p e r]; cbn [i_pos i_end i_rest] in *. destruct (p <? start) eqn:E; cbn [i_pos i_end i_rest].
      - split; [lia|]. split; [reflexivity|]. split; [|lia]. unfold clip. cbn [i_pos i_end i_rest]. f_equal. lia.
      - split; [lia|]. auto. }
    destruct Hi as (I1 & I2 & I3 & I4). rewrite (fix_last_clip start end_ l i' I1).
    - cbn [map]. rewrite I3. reflexivity.
    - split; [exact I4|]. rewrite I2. auto.
    - constructor; [|exact F2]. destruct F1 as [F1 F1']. split; [lia|]. unfold i'. destruct end_ as [x|]; [|exact I].
      destruct i as [p e r]; cbn [i_pos i_end i_rest] in *. destruct (p <? start) eqn:E; cbn [i_pos]; [|exact F1'].
      apply Hw. reflexivity. }
  unfold fix_boundaries. destruct end_ as [x|]; [exact Hg|]. destruct start as [|start]; [|exact Hg].
  transitivity (map (fun i : item R => i) l); [symmetry; apply map_id|]. apply map_ext. intros i. symmetry. apply clip_id. split; [lia|exact I].
Qed.

Lemma cover_cons (i : item R) (l : list (item R)) p : cover (i :: l) p = if (i_pos i <=? p) && (p <? i_end i) then Some (i_rest i) else cover l p.
Proof. unfold cover. cbn [find]. destruct (_ && _); reflexivity. Qed.
Lemma cover_none (l : list (item R)) p : (forall i, In i l -> ~ (i_pos i <= p < i_end i)) -> cover l p = None.
Proof.
  induction l as [|i l IH]; intros H; [reflexivity|]. rewrite cover_cons. specialize (H i (or_introl eq_refl)) as Hi.
  replace (_ && _) with false by lia. apply IH. intros j Hj. apply H. right; exact Hj.
Qed.

Lemma clip_cover start end_ l p : cover (map (clip start end_) l) p = if (start <=? p) && match end_ with Some e => p <? e | None => true end then cover l p else None.
Proof.
  induction l as [|i l IH]; [cbn; destruct (_ && _); reflexivity|]. cbn [map]. rewrite !cover_cons. unfold clip at 1 2 3. cbn [i_pos i_end i_rest]. rewrite IH.
  destruct end_ as [e|]; destruct (start <=? p) eqn:E1; cbn [andb]; try destruct (p <? e) eqn:E2.
  all: first [replace ((max start (i_pos i) <=? p) && _) with false by lia; reflexivity
             |replace (max start (i_pos i) <=? p) with (i_pos i <=? p) by lia; try replace (p <? min e (i_end i)) with (p <? i_end i) by lia; reflexivity].
Qed.
Lemma clip_ordered start end_ l : (forall e, end_ = Some e -> start < e) -> ordered l -> Forall (overlaps start end_) l -> ordered (map (clip start end_) l).
Proof.
  intros Hw. induction l as [|i l IH]; intros Ho Hf; [exact I|]. destruct Ho as (H1 & H2 & H3). inversion Hf as [|? ? F1 F2]; subst. cbn [map ordered].
  split; [|split; [|auto]].
  - unfold clip. cbn [i_pos i_end]. destruct F1 as [F1 F1']. destruct end_ as [e|]; [specialize (Hw e eq_refl)|]; lia.
  - intros j Hj. apply in_map_iff in Hj as (k & <- & Hk). specialize (H2 k Hk). unfold clip. cbn [i_pos i_end]. destruct end_; lia.
Qed.
Lemma clip_inside start end_ i : overlaps start end_ i -> inside start end_ (clip start end_ i).
Proof. intros [H1 H2]. unfold inside, clip. cbn [i_pos i_end]. destruct end_; lia. Qed.

(** ** merge_adjacent *)

Lemma merge_ok : forall l pos e r, ordered (Item pos e r :: l) ->
  let out := merge_from eqb pos e r l in
  ordered out /\ no_mergeable out /\ (forall p, cover out p = cover (Item pos e r :: l) p)
  /\ (exists e' l', out = Item pos e' r :: l')
  /\ (forall b, (forall j, In j (Item pos e r :: l) -> i_end j <= b) -> forall j, In j out -> i_end j <= b)
  /\ (forall j, In j out -> pos <= i_pos j).
Proof.
  induction l as [|[np ne nr] l IH]; intros pos e r Ho; cbv zeta.
  - cbn [merge_from]. split; [exact Ho|]. split; [exact I|]. split; [reflexivity|]. split; [eexists; eexists; reflexivity|]. split; [auto|].
    intros j [<-|[]]. cbn. lia.
  - destruct Ho as (H1 & H2 & H3). cbn [i_pos i_end] in *. specialize (H2 _ (or_introl eq_refl)) as Hn. cbn [i_pos] in Hn. pose proof H3 as H3'. destruct H3 as (K1 & K2 & K3). cbn [i_pos i_end] in *. cbn [merge_from].
    destruct (negb (eqb nr r) || (e <? np)) eqn:E.
    + destruct (IH np ne nr H3') as (A1 & A2 & A3 & (e' & l' & A4) & A5 & A6). rewrite A4 in *. split; [|split; [|split; [|split; [|split]]]].
      * cbn [ordered i_pos i_end]. split; [exact H1|]. split; [|exact A1]. intros j Hj. specialize (A6 j Hj). lia.
      * cbn [no_mergeable i_pos i_end i_rest]. split; [|exact A2]. intros [E1 E2]. apply orb_true_iff in E as [E|E]; [|lia].
        destruct (eqb nr r) eqn:Eq; [discriminate|]. assert (eqb nr r = true) by (apply eqb_ok; congruence). congruence.
      * intros p. rewrite (cover_cons _ (Item np e' nr :: l')), A3, (cover_cons _ (Item np ne nr :: l)). reflexivity.
      * eexists. eexists. reflexivity.
      * intros b Hb j [<-|Hj]; [apply Hb; left; reflexivity|]. apply (A5 b); [|exact Hj]. intros k Hk. apply Hb. right; exact Hk.
      * intros j [<-|Hj]; [cbn; lia|]. specialize (A6 j Hj). lia.
    + apply orb_false_iff in E as [E1 E2]. assert (nr = r) by (apply eqb_ok; destruct (eqb nr r); [reflexivity|discriminate]). subst nr. assert (np = e) by lia. subst np.
      assert (Ho : ordered (Item pos ne r :: l)) by (cbn [ordered i_pos i_end]; split; [lia|]; split; assumption).
      destruct (IH pos ne r Ho) as (A1 & A2 & A3 & A4 & A5 & A6). split; [exact A1|]. split; [exact A2|]. split; [|split; [exact A4|split; [|exact A6]]].
      * intros p. rewrite A3, !cover_cons. cbn [i_pos i_end i_rest]. destruct (pos <=? p) eqn:P1, (p <? ne) eqn:P2, (p <? e) eqn:P3, (e <=? p) eqn:P4; cbn [andb]; try reflexivity; lia.
      * intros b Hb. apply A5. intros j [<-|Hj]; [apply (Hb (Item e ne r)); right; left; reflexivity|]. apply Hb. right; right; exact Hj.
Qed.
End Ranges.

(** ** split_list *)
Lemma index_some {A} (eqb : A -> A -> bool) (ok : forall a b, eqb a b = true <-> a = b) l x j : index eqb l x = Some j ->
  exists a b, l = a ++ x :: b /\ length a = j /\ ~ In x a.
Proof.
  revert j. induction l as [|y l IH]; intros j H; [discriminate|]. cbn [index] in H. destruct (eqb y x) eqn:E.
  - injection H as <-. apply ok in E. subst. exists [], l. auto.
  - destruct (index eqb l x) as [k|]; [|discriminate]. injection H as <-. destruct (IH k eq_refl) as (a & b & -> & H1 & H2). exists (y :: a), b.
    split; [reflexivity|]. split; [cbn; lia|]. intros [->|K]; [|auto]. assert (eqb x x = true) by (apply ok; reflexivity). congruence.
Qed.
Lemma index_none {A} (eqb : A -> A -> bool) (ok : forall a b, eqb a b = true <-> a = b) l x : index eqb l x = None -> ~ In x l.
Proof.
  induction l as [|y l IH]; intros H; [intros []|]. cbn [index] in H. destruct (eqb y x) eqn:E; [discriminate|]. destruct (index eqb l x); [discriminate|].
  intros [->|K]; [|exact (IH eq_refl K)]. assert (eqb x x = true) by (apply ok; reflexivity). congruence.
Qed.

Lemma split_ok {A} (eqb : A -> A -> bool) (ok : forall a b, eqb a b = true <-> a = b) sep : forall fuel pre l,
  length l < fuel -> exists ls, split_from eqb fuel (pre ++ l) sep (length pre) = Some ls
  /\ ls <> [] /\ join_with sep ls = l /\ Forall (fun x => ~ In sep x) ls.
Proof.
  induction fuel as [|fuel IH]; intros pre l Hf; [lia|]. cbn [split_from]. unfold index_from, from. rewrite skipn_app, skipn_all2, Nat.sub_diag by lia. cbn [app skipn].
  destruct (index eqb l sep) as [j|] eqn:E; cbn [option_map].
  - destruct (index_some eqb ok _ _ _ E) as (a & b & -> & <- & Ha).
    destruct (IH (pre ++ a ++ [sep]) b) as (ls & E1 & E2 & E3 & E4); [rewrite app_length in Hf; cbn in Hf; lia|].
    replace (pre ++ a ++ sep :: b) with ((pre ++ a ++ [sep]) ++ b) by (rewrite <- !app_assoc; reflexivity).
    replace (length pre + length a + 1) with (length (pre ++ a ++ [sep])) by (rewrite !app_length; cbn; lia). rewrite E1. cbn [option_map].
    exists (slice ((pre ++ a ++ [sep]) ++ b) (length pre) (length pre + length a) :: ls). split; [reflexivity|]. split; [discriminate|].
    assert (Hs : slice ((pre ++ a ++ [sep]) ++ b) (length pre) (length pre + length a) = a).
    { unfold slice. replace (length pre + length a - length pre) with (length a) by lia. rewrite <- !app_assoc, skipn_app, skipn_all2, Nat.sub_diag by lia. cbn [app skipn].
      rewrite firstn_app, Nat.sub_diag, firstn_all. cbn. apply app_nil_r. }
    rewrite Hs. split; [|constructor; assumption]. destruct ls as [|x ls]; [congruence|]. cbn [join_with] in E3 |- *. rewrite E3. reflexivity.
  - exists [l]. split; [reflexivity|]. split; [discriminate|]. split; [reflexivity|]. constructor; [|constructor]. apply (index_none eqb ok). exact E.
Qed.

(** ** unroll *)
Fixpoint osize {A} (o : obj A) : nat :=
  match o with Atom _ => 1 | Seq l => 2 + list_sum (map osize l) end.

Lemma osize_pos {A} (o : obj A) : 0 < osize o.
Proof. destruct o; cbn [osize]; lia. Qed.
Lemma unroll_ok {A} : forall fuel (gen : list (obj A)) stack,
  list_sum (map osize gen) + list_sum (map (fun g => 1 + list_sum (map osize g)) stack) < fuel ->
  unroll_loop fuel gen stack = Some (flat_map flatten gen ++ flat_map (flat_map flatten) stack).
Proof.
  induction fuel as [|fuel IH]; intros gen stack Hf; [lia|]. cbn [unroll_loop]. destruct gen as [|o gen].
  - destruct stack as [|g stack]; [reflexivity|]. cbn [map list_sum fold_right] in Hf. fold (list_sum (map (fun g => 1 + list_sum (map osize g)) stack)) in Hf.
    rewrite IH by (unfold list_sum in *; lia). reflexivity.
  - cbn [map list_sum fold_right] in Hf. fold (list_sum (map osize gen)) in Hf. destruct o as [a|l].
    + cbn [osize] in Hf. rewrite IH by lia. reflexivity.
    + cbn [osize] in Hf. rewrite IH; [cbn [flat_map flatten]; rewrite <- app_assoc; reflexivity|]. cbn [map list_sum fold_right].
      fold (list_sum (map (fun g => 1 + list_sum (map osize g)) stack)). lia.
Qed.
