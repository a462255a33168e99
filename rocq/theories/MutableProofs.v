(** Proofs about batches of edits. *)
From Verif Require Import Base BaseFacts MutableModel MutableSpec.
From Coq Require Import ZArith ZifyBool Sorted.

(** ** Edited text of a sorted list of changes *)

(** Positions [a] up to [b]. *)
Definition seg text es a b : str := concat (map (at_position text es) (seq a (b - a))).

Lemma seg_nil text es a b : b <= a -> seg text es a b = [].
Proof. intros H. unfold seg. replace (b - a) with 0 by lia. reflexivity. Qed.

Lemma seg_split text es a b c : a <= b -> b <= c -> seg text es a c = seg text es a b ++ seg text es b c.
Proof.
  intros H1 H2. unfold seg. replace (c - a) with ((b - a) + (c - b)) by lia.
  rewrite seq_app, map_app, concat_app. do 3 f_equal. f_equal. lia.
Qed.

Lemma seg_one text es a : seg text es a (S a) = at_position text es a.
Proof. unfold seg. replace (S a - a) with 1 by lia. simpl. apply app_nil_r. Qed.

Lemma seg_ext text es es' a b : (forall p, a <= p < b -> at_position text es p = at_position text es' p) ->
  seg text es a b = seg text es' a b.
Proof.
  intros H. unfold seg. f_equal. apply map_ext_in. intros p Hp. apply in_seq in Hp. apply H. lia.
Qed.

Lemma concat_all_nil {A} (l : list (list A)) : (forall x, In x l -> x = []) -> concat l = [].
Proof.
  induction l as [|x l IH]; intros H; [reflexivity|]. simpl. rewrite (H x (or_introl eq_refl)).
  apply IH. intros y Hy. apply H. right; exact Hy.
Qed.

Lemma filter_none {A} (f : A -> bool) l : (forall x, In x l -> f x = false) -> filter f l = [].
Proof.
  induction l as [|x l IH]; intros H; [reflexivity|]. simpl.
  rewrite (H x (or_introl eq_refl)). apply IH. intros y Hy. apply H. right; exact Hy.
Qed.

Lemma covered_none es p : (forall e, In e es -> ~ (g_start e <= p < g_end e)) -> covered es p = false.
Proof.
  intros H. unfold covered. destruct (existsb _ es) eqn:E; [|reflexivity].
  apply existsb_exists in E as (e & He & E). exfalso. apply (H e He). lia.
Qed.

Lemma seg_plain text es a b :
  (forall e, In e es -> b <= g_start e \/ (g_end e <= a /\ g_start e < a)) -> a <= b ->
  seg text es a b = slice text a b.
Proof.
  intros H. revert H. remember (b - a) as n eqn:En. revert a En. induction n as [|n IH]; intros a En H Hab.
  - rewrite seg_nil by lia. rewrite slice_nil by lia. reflexivity.
  - rewrite (seg_split _ _ a (S a) b) by lia. rewrite seg_one. rewrite IH; [|lia| |lia].
    + unfold at_position. rewrite filter_none.
      2:{ intros e He. specialize (H e He). lia. }
      rewrite covered_none.
      2:{ intros e He. specialize (H e He). lia. }
      simpl. apply slice_app_slice; lia.
    + intros e He. specialize (H e He). lia.
Qed.

Lemma ordered_in tail cs : ordered tail cs -> forall c, In c cs -> tail <= g_start c /\ g_start c <= g_end c.
Proof.
  revert tail. induction cs as [|d cs IH]; intros tail H c; [intros []|].
  destruct H as (H1 & H2 & H4). intros [<-|Hc]; [lia|].
  destruct (IH _ H4 c Hc). lia.
Qed.

Lemma at_position_skip text c cs p : g_start c <> p -> ~ (g_start c <= p < g_end c) ->
  at_position text (c :: cs) p = at_position text cs p.
Proof.
  intros H1 H2. unfold at_position, covered. cbn [filter existsb].
  replace (g_start c =? p) with false by lia. replace ((g_start c <=? p) && (p <? g_end c)) with false by lia.
  reflexivity.
Qed.

Lemma generate_text_ok text : forall cs tail, ordered tail cs -> (forall c, In c cs -> g_end c <= length text) ->
  tail <= length text ->
  generate_text text tail cs = seg text cs tail (S (length text)).
Proof.
  induction cs as [|c cs IH]; intros tail H Hl Ht.
  - cbn [generate_text]. rewrite seg_plain; [|intros e []|lia]. unfold from, slice.
    rewrite firstn_all2; [reflexivity|]. rewrite skipn_length. lia.
  - cbn [generate_text]. destruct H as (H1 & H2 & H4).
    assert (Hc : g_end c <= length text) by (apply Hl; left; reflexivity).
    assert (Hcs : forall d, In d cs -> g_end c <= g_start d /\ g_start d <= g_end d) by (apply ordered_in; exact H4).
    rewrite IH; [|exact H4|intros d Hd; apply Hl; right; exact Hd|lia].
    rewrite (seg_split _ _ tail (g_start c)) by lia.
    assert (E1 : seg text (c :: cs) tail (g_start c) = slice text tail (g_start c)).
    { apply seg_plain; [|lia]. intros e [<-|He]; [lia|]. specialize (Hcs e He). lia. }
    rewrite E1. f_equal.
    { destruct (tail <? g_start c) eqn:E; [reflexivity|]. rewrite slice_nil by lia. reflexivity. }
    destruct (Nat.eq_dec (g_start c) (g_end c)) as [E|E].
    + rewrite (seg_split _ (c :: cs) (g_start c) (S (g_start c))) by lia. rewrite seg_one.
      rewrite <- E. rewrite (seg_split _ cs (g_start c) (S (g_start c))) by lia. rewrite seg_one.
      rewrite app_assoc. f_equal.
      * unfold at_position. cbn [filter]. rewrite Nat.eqb_refl. cbn [map concat]. rewrite <- app_assoc. do 2 f_equal.
        unfold covered. cbn [existsb]. replace ((g_start c <=? g_start c) && (g_start c <? g_end c)) with false by lia.
        reflexivity.
      * apply seg_ext. intros p Hp. symmetry. apply at_position_skip; lia.
    + rewrite (seg_split _ (c :: cs) (g_start c) (S (g_start c))) by lia. rewrite seg_one.
      rewrite (seg_split _ (c :: cs) (S (g_start c)) (g_end c)) by lia.
      assert (E2 : at_position text (c :: cs) (g_start c) = g_text c).
      { unfold at_position. cbn [filter]. rewrite Nat.eqb_refl. rewrite filter_none.
        2:{ intros d Hd. specialize (Hcs d Hd). lia. }
        cbn [map concat]. rewrite app_nil_r. unfold covered. cbn [existsb].
        replace ((g_start c <=? g_start c) && (g_start c <? g_end c)) with true by lia. apply app_nil_r. }
      assert (E3 : seg text (c :: cs) (S (g_start c)) (g_end c) = []).
      { unfold seg. apply concat_all_nil. intros x Hx.
        apply in_map_iff in Hx as (p & <- & Hp). apply in_seq in Hp. unfold at_position.
        rewrite filter_none.
        2:{ intros d [<-|Hd]; [lia|]. specialize (Hcs d Hd). lia. }
        unfold covered. cbn [existsb]. replace ((g_start c <=? p) && (p <? g_end c)) with true by lia. reflexivity. }
      rewrite E2, E3. cbn [app]. f_equal. apply seg_ext. intros p Hp. symmetry. apply at_position_skip; lia.
Qed.

Lemma update_text_edited text cs : ordered 0 cs -> (forall c, In c cs -> g_end c <= length text) ->
  update_text text cs = edited text cs.
Proof.
  intros H Hl. unfold update_text. rewrite generate_text_ok; try assumption; [|lia].
  unfold seg, edited. rewrite Nat.sub_0_r. reflexivity.
Qed.

(** ** The dictionary *)

Definition entry_edits (x : nat * list (nat * str)) : list change :=
  map (fun et => Change (fst x) (fst et) (snd et)) (snd x).
Definition dict_edits (d : dict) : list change := flat_map entry_edits d.

(** Same edits, and those with the same start in the same order. *)
Definition same_groups (a b : list change) : Prop :=
  forall p, filter (fun e => g_start e =? p) a = filter (fun e => g_start e =? p) b.

Lemma same_groups_in a b e : same_groups a b -> In e a -> In e b.
Proof.
  intros H Hin. assert (Hf : In e (filter (fun x => g_start x =? g_start e) a))
    by (apply filter_In; split; [exact Hin|apply Nat.eqb_refl]).
  rewrite H in Hf. apply filter_In in Hf as [Hf _]. exact Hf.
Qed.

Lemma same_groups_sym a b : same_groups a b -> same_groups b a.
Proof. intros H p. symmetry. apply H. Qed.

Lemma same_groups_trans a b c : same_groups a b -> same_groups b c -> same_groups a c.
Proof. intros H1 H2 p. rewrite H1. apply H2. Qed.

Lemma covered_same a b p : same_groups a b -> covered a p = covered b p.
Proof.
  intros H. unfold covered.
  destruct (existsb _ a) eqn:Ea; destruct (existsb _ b) eqn:Eb; try reflexivity.
  - apply existsb_exists in Ea as (e & He & E). apply (same_groups_in a b e H) in He.
    rewrite <- Eb. symmetry. apply existsb_exists. eauto.
  - apply existsb_exists in Eb as (e & He & E). apply (same_groups_in b a e (same_groups_sym _ _ H)) in He.
    rewrite <- Ea. apply existsb_exists. eauto.
Qed.

Lemma edited_same text a b : same_groups a b -> edited text a = edited text b.
Proof.
  intros H. unfold edited. f_equal. apply map_ext. intros p. unfold at_position.
  rewrite (H p). rewrite (covered_same a b p H). reflexivity.
Qed.

Lemma filter_app' {A} (f : A -> bool) a b : filter f (a ++ b) = filter f a ++ filter f b.
Proof. induction a as [|x a IH]; simpl; [reflexivity|]. destruct (f x); simpl; rewrite IH; reflexivity. Qed.

Lemma entry_filter s l p : filter (fun e => g_start e =? p) (entry_edits (s, l))
  = if s =? p then entry_edits (s, l) else [].
Proof.
  unfold entry_edits. simpl. induction l as [|x l IH]; simpl; [destruct (s =? p); reflexivity|].
  destruct (s =? p) eqn:E; rewrite IH; reflexivity.
Qed.

Lemma dict_filter_absent d p : ~ In p (map fst d) -> filter (fun e => g_start e =? p) (dict_edits d) = [].
Proof.
  intros H. apply filter_none. intros e He. unfold dict_edits in He. apply in_flat_map in He as ((s, l) & Hx & He).
  unfold entry_edits in He. apply in_map_iff in He as (et & <- & _). simpl.
  apply Nat.eqb_neq. intros ->. apply H. apply in_map_iff. exists (p, l). auto.
Qed.

Lemma dict_add_keys s e t d : map fst (dict_add s e t d) = if existsb (Nat.eqb s) (map fst d) then map fst d else map fst d ++ [s].
Proof.
  induction d as [|(k, l) d IH]; simpl; [reflexivity|]. rewrite (Nat.eqb_sym s k).
  destruct (k =? s) eqn:E; simpl; [reflexivity|]. rewrite IH. destruct (existsb _ _); reflexivity.
Qed.

Lemma NoDup_snoc {A} (l : list A) x : NoDup l -> ~ In x l -> NoDup (l ++ [x]).
Proof.
  induction l as [|y l IH]; simpl; intros H Hx; [repeat constructor; auto|].
  inversion H; subst. constructor.
  - intros Hin. apply in_app_iff in Hin as [Hin|[->|[]]]; [auto|]. apply Hx. left; reflexivity.
  - apply IH; [assumption|]. intros Hin. apply Hx. right; exact Hin.
Qed.

Lemma dict_add_nodup s e t d : NoDup (map fst d) -> NoDup (map fst (dict_add s e t d)).
Proof.
  intros H. rewrite dict_add_keys. destruct (existsb _ _) eqn:E; [exact H|].
  apply NoDup_snoc; [exact H|]. intros Hin.
  assert (existsb (Nat.eqb s) (map fst d) = true) by (apply existsb_exists; exists s; split; [exact Hin|apply Nat.eqb_refl]).
  congruence.
Qed.

Lemma dict_add_edits s e t d : NoDup (map fst d) ->
  same_groups (dict_edits (dict_add s e t d)) (dict_edits d ++ [Change s e t]).
Proof.
  intros Hnd p. rewrite filter_app'. induction d as [|(k, l) d IH].
  - simpl. destruct (s =? p); reflexivity.
  - inversion Hnd as [|? ? Hk Hnd']; subst. cbn [dict_add]. destruct (k =? s) eqn:E.
    + assert (k = s) by lia. subst k. unfold dict_edits. cbn [flat_map]. rewrite !filter_app'.
      rewrite !entry_filter. cbn [filter g_start]. destruct (s =? p) eqn:Ep.
      * assert (s = p) by lia. subst p. change (flat_map entry_edits d) with (dict_edits d).
        rewrite dict_filter_absent by exact Hk. unfold entry_edits. cbn [fst snd]. rewrite map_app, !app_nil_r.
        reflexivity.
      * rewrite app_nil_r. reflexivity.
    + unfold dict_edits. cbn [flat_map]. rewrite !filter_app'. rewrite <- app_assoc. f_equal. apply IH. exact Hnd'.
Qed.

Lemma insert_key_edits x d : ~ In (fst x) (map fst d) ->
  same_groups (dict_edits (insert_key x d)) (dict_edits (x :: d)).
Proof.
  destruct x as [s l]. intros H p. induction d as [|(k, m) d IH]; [reflexivity|]. cbn [insert_key fst].
  destruct (s <=? k); [reflexivity|]. unfold dict_edits in *. cbn [flat_map] in *. rewrite !filter_app' in *.
  rewrite IH by (intros Hin; apply H; right; exact Hin). rewrite !app_assoc. f_equal.
  rewrite !entry_filter. destruct (s =? p) eqn:E1; destruct (k =? p) eqn:E2; rewrite ?app_nil_r; try reflexivity.
  exfalso. apply H. left. simpl. lia.
Qed.

Lemma insert_key_in x d k : In k (map fst (insert_key x d)) <-> In k (map fst (x :: d)).
Proof.
  induction d as [|y d IH]; [reflexivity|]. cbn [insert_key]. destruct (fst x <=? fst y); [reflexivity|].
  cbn [map In] in *. rewrite IH. tauto.
Qed.

Lemma sort_dict_in d k : In k (map fst (sort_dict d)) <-> In k (map fst d).
Proof. induction d as [|x d IH]; [reflexivity|]. cbn [sort_dict]. rewrite insert_key_in. simpl. rewrite IH. reflexivity. Qed.

Lemma sort_dict_edits d : NoDup (map fst d) -> same_groups (dict_edits (sort_dict d)) (dict_edits d).
Proof.
  induction d as [|x d IH]; intros H; [intros p; reflexivity|]. inversion H as [|? ? Hk Hnd]; subst.
  cbn [sort_dict]. eapply same_groups_trans.
  - apply insert_key_edits. rewrite sort_dict_in. exact Hk.
  - intros p. unfold dict_edits. cbn [flat_map]. rewrite !filter_app'. f_equal. apply IH. exact Hnd.
Qed.

Fixpoint strict (d : dict) : Prop :=
  match d with [] => True | x :: d => (forall y, In y d -> fst x < fst y) /\ strict d end.

Lemma insert_key_strict x d : strict d -> ~ In (fst x) (map fst d) -> strict (insert_key x d).
Proof.
  induction d as [|y d IH]; intros H Hx; [simpl; split; [intros ? []|exact I]|].
  cbn [insert_key]. destruct H as [H1 H2]. destruct (fst x <=? fst y) eqn:E.
  - assert (fst x < fst y) by (assert (fst x <> fst y) by (intros Heq; apply Hx; left; auto); lia).
    split; [|split; assumption]. intros z [<-|Hz]; [assumption|]. specialize (H1 z Hz). lia.
  - split; [|apply IH; [exact H2|intros Hin; apply Hx; right; exact Hin]].
    intros z Hz. apply (in_map fst) in Hz. apply insert_key_in in Hz. destruct Hz as [Hz|Hz]; [lia|].
    apply in_map_iff in Hz as (w & Ew & Hw). specialize (H1 w Hw). lia.
Qed.

Lemma sort_dict_strict d : NoDup (map fst d) -> strict (sort_dict d).
Proof.
  induction d as [|x d IH]; intros H; [exact I|]. inversion H as [|? ? Hk Hnd]; subst. cbn [sort_dict].
  apply insert_key_strict; [apply IH; exact Hnd|]. rewrite sort_dict_in. exact Hk.
Qed.

(** ** Merging *)

Definition merge_entry (x : nat * list (nat * str)) : change :=
  Change (fst x) (list_max (map fst (snd x))) (concat (map snd (snd x))).

Lemma get_changes_from_some e d cs : get_changes_from e d = Some cs -> cs = map merge_entry d.
Proof.
  revert e cs. induction d as [|(s, c) d IH]; intros e cs H; [injection H as <-; reflexivity|].
  cbn [get_changes_from] in H. destruct (s <? e); [discriminate|].
  destruct (get_changes_from _ d) as [r|] eqn:E; [|discriminate]. injection H as <-.
  rewrite (IH _ _ E). reflexivity.
Qed.

Lemma list_max_ge l x : In x l -> x <= list_max l.
Proof. induction l as [|y l IH]; [intros []|]. simpl. intros [<-|H]; [lia|]. specialize (IH H). lia. Qed.

Lemma list_max_in l : l <> [] -> In (list_max l) l.
Proof.
  induction l as [|y l IH]; [congruence|]. intros _. destruct l as [|z l]; [left; simpl; lia|].
  change (list_max (y :: z :: l)) with (Nat.max y (list_max (z :: l))).
  destruct (Nat.max_spec y (list_max (z :: l))) as [[_ ->]|[_ ->]]; [right; apply IH; discriminate|left; reflexivity].
Qed.

Lemma merge_covered x p : covered (entry_edits x) p = covered [merge_entry x] p.
Proof.
  destruct x as [s l]. unfold covered. cbn [existsb merge_entry g_start g_end fst snd]. rewrite orb_false_r.
  unfold entry_edits. cbn [fst snd].
  induction l as [|(e, t) l IH]; [simpl; lia|]. cbn [map existsb fst g_start g_end].
  rewrite IH. change (list_max (e :: map fst l)) with (Nat.max e (list_max (map fst l))). lia.
Qed.

Lemma covered_app a b p : covered (a ++ b) p = covered a p || covered b p.
Proof. unfold covered. apply existsb_app. Qed.

Lemma merge_edited text d : edited text (dict_edits d) = edited text (map merge_entry d).
Proof.
  unfold edited. f_equal. apply map_ext. intros p. unfold at_position. f_equal.
  - induction d as [|(s, l) d IH]; [reflexivity|]. unfold dict_edits in *. cbn [flat_map map filter].
    rewrite filter_app', map_app, concat_app, IH, entry_filter. cbn [merge_entry g_start fst].
    destruct (s =? p); [|reflexivity]. cbn [map concat g_text merge_entry snd]. f_equal.
    unfold entry_edits. cbn [fst snd]. rewrite map_map. reflexivity.
  - replace (covered (dict_edits d) p) with (covered (map merge_entry d) p); [reflexivity|].
    induction d as [|x d IH]; [reflexivity|]. unfold dict_edits in *. cbn [flat_map map].
    rewrite covered_app, merge_covered, <- IH. change (merge_entry x :: map merge_entry d) with ([merge_entry x] ++ map merge_entry d).
    rewrite covered_app. reflexivity.
Qed.

(** Entries have edits, which do not end before they start. *)
Definition entries_ok (d : dict) : Prop := forall x, In x d -> snd x <> [] /\ forall et, In et (snd x) -> fst x <= fst et.

Lemma get_changes_from_ordered d : entries_ok d -> forall e cs, get_changes_from e d = Some cs -> ordered e cs.
Proof.
  induction d as [|(s, c) d IH]; intros Hok e cs H; [injection H as <-; exact I|].
  pose proof (get_changes_from_some _ _ _ H) as Ecs.
  cbn [get_changes_from] in H. destruct (s <? e) eqn:E; [discriminate|].
  destruct (get_changes_from _ d) as [r|] eqn:Er; [|discriminate]. injection H as <-.
  cbn [ordered g_start g_end]. destruct (Hok _ (or_introl eq_refl)) as [H1 H2]. cbn [fst snd] in H1, H2.
  split; [lia|]. split.
  - destruct c as [|x c]; [congruence|]. specialize (H2 x (or_introl eq_refl)).
    assert (fst x <= list_max (map fst (x :: c))) by (apply list_max_ge; left; reflexivity). lia.
  - apply IH; [|exact Er]. intros x Hx. apply Hok. right; exact Hx.
Qed.

Lemma in_dict_edits s l e t d : In (s, l) d -> In (e, t) l -> In (Change s e t) (dict_edits d).
Proof.
  intros H1 H2. unfold dict_edits. apply in_flat_map. exists (s, l). split; [exact H1|].
  unfold entry_edits. apply in_map_iff. exists (e, t). auto.
Qed.

Lemma get_changes_from_none d : strict d -> entries_ok d -> forall e, get_changes_from e d = None ->
  (exists s l, hd_error d = Some (s, l) /\ s < e) \/ exists a b, In a (dict_edits d) /\ In b (dict_edits d) /\ cuts a b.
Proof.
  induction d as [|(s, c) d IH]; intros Hs Hok e H; [discriminate|]. cbn [get_changes_from] in H.
  destruct (s <? e) eqn:E; [left; exists s, c; split; [reflexivity|lia]|right].
  destruct (get_changes_from _ d) as [r|] eqn:Er; [discriminate|].
  destruct (Hok _ (or_introl eq_refl)) as [H1 H2]. cbn [fst snd] in H1, H2. destruct Hs as [Hs1 Hs2].
  destruct (IH Hs2 (fun x Hx => Hok x (or_intror Hx)) _ Er) as [(s' & l' & Hh & Hlt)|(a & b & Ha & Hb & Hab)].
  - destruct d as [|x d]; [discriminate|]. injection Hh as ->.
    assert (Hm : In (list_max (map fst c)) (map fst c)) by (apply list_max_in; destruct c; [congruence|discriminate]).
    apply in_map_iff in Hm as ((me, mt) & Em & Hm). cbn [fst] in Em.
    destruct (Hok (s', l') (or_intror (or_introl eq_refl))) as [H3 _]. cbn [snd] in H3.
    destruct l' as [|(e', t') l']; [congruence|].
    exists (Change s me mt), (Change s' e' t'). split; [|split].
    + apply (in_dict_edits s c); [left; reflexivity|exact Hm].
    + apply (in_dict_edits s' ((e', t') :: l')); [right; left; reflexivity|left; reflexivity].
    + unfold cuts. cbn [g_start g_end]. specialize (Hs1 (s', (e', t') :: l') (or_introl eq_refl)). simpl in Hs1. lia.
  - exists a, b. unfold dict_edits in *. cbn [flat_map]. rewrite !in_app_iff. auto.
Qed.

Lemma in_dict_edits_inv e d : In e (dict_edits d) -> exists l, In (g_start e, l) d /\ In (g_end e, g_text e) l.
Proof.
  intros H. unfold dict_edits in H. apply in_flat_map in H as ((s, l) & H1 & H2). unfold entry_edits in H2.
  apply in_map_iff in H2 as ((e', t') & <- & H2). exists l. auto.
Qed.

Lemma ordered_no_cut cs : forall tail, ordered tail cs -> forall a b, In a cs -> In b cs -> ~ cuts a b.
Proof.
  induction cs as [|c cs IH]; intros tail H a b; [intros []|]. destruct H as (H1 & H2 & H4).
  assert (H5 : forall d, In d cs -> g_end c <= g_start d /\ g_start d <= g_end d) by (apply ordered_in; exact H4).
  unfold cuts. intros [<-|Ha] [<-|Hb]; [lia| | |exact (IH _ H4 a b Ha Hb)].
  - specialize (H5 b Hb). lia.
  - specialize (H5 a Ha). lia.
Qed.

(** ** [_get_changes] *)

Definition dict_ok (d : dict) : Prop := NoDup (map fst d) /\ entries_ok d.

Lemma insert_key_In x d y : In y (insert_key x d) <-> y = x \/ In y d.
Proof.
  induction d as [|z d IH]; [simpl; intuition congruence|]. cbn [insert_key].
  destruct (fst x <=? fst z); [simpl; intuition congruence|]. cbn [In]. rewrite IH. tauto.
Qed.

Lemma sort_dict_In d y : In y (sort_dict d) <-> In y d.
Proof. induction d as [|x d IH]; [reflexivity|]. cbn [sort_dict]. rewrite insert_key_In, IH. simpl. intuition congruence. Qed.

Lemma sort_ok d : dict_ok d -> strict (sort_dict d) /\ entries_ok (sort_dict d)
  /\ same_groups (dict_edits (sort_dict d)) (dict_edits d).
Proof.
  intros [H1 H2]. split; [apply sort_dict_strict; exact H1|]. split; [|apply sort_dict_edits; exact H1].
  intros x Hx. apply H2. apply sort_dict_In. exact Hx.
Qed.

Lemma get_changes_some text d cs : dict_ok d -> d <> [] -> get_changes d = Some cs ->
  (forall e, In e (dict_edits d) -> in_text text e) ->
  cs <> [] /\ (exists tail, ordered tail cs) /\ (forall c, In c cs -> g_end c <= length text)
  /\ edited text cs = edited text (dict_edits d)
  /\ forall a b, In a (dict_edits d) -> In b (dict_edits d) -> ~ cuts a b.
Proof.
  intros Hok Hd H Hin. destruct (sort_ok d Hok) as (H1 & H2 & H3). unfold get_changes in H.
  destruct (sort_dict d) as [|(s, c) r] eqn:E.
  { exfalso. apply Hd. destruct d as [|x d]; [reflexivity|].
    assert (In x (sort_dict (x :: d))) by (apply sort_dict_In; left; reflexivity). rewrite E in H0. destruct H0. }
  pose proof (get_changes_from_some _ _ _ H) as Ecs.
  pose proof (get_changes_from_ordered _ H2 _ _ H) as Ho.
  split; [subst cs; discriminate|]. split; [eauto|].
  assert (Hm : forall x, In x ((s, c) :: r) -> exists t, In (Change (fst x) (list_max (map fst (snd x))) t) (dict_edits d)).
  { intros (xs, xl) Hx. destruct (H2 _ Hx) as [Hne _]. cbn [snd fst] in *.
    assert (Hi : In (list_max (map fst xl)) (map fst xl)) by (apply list_max_in; destruct xl; [congruence|discriminate]).
    apply in_map_iff in Hi as ((me, mt) & Em & Hi). cbn [fst] in Em. subst me. exists mt.
    apply (same_groups_in _ _ _ H3). apply (in_dict_edits xs xl); assumption. }
  split; [|split].
  - intros x Hx. subst cs. apply in_map_iff in Hx as (y & <- & Hy). destruct (Hm y Hy) as [t Ht].
    destruct (Hin _ Ht) as [_ Hl]. exact Hl.
  - rewrite <- (edited_same text _ _ H3). rewrite merge_edited, <- Ecs. reflexivity.
  - intros a b Ha Hb Hc. apply (same_groups_in _ _ _ (same_groups_sym _ _ H3)) in Ha, Hb.
    apply in_dict_edits_inv in Ha as (la & Ha1 & Ha2), Hb as (lb & Hb1 & Hb2).
    assert (Hma : In (merge_entry (g_start a, la)) cs) by (subst cs; apply in_map; exact Ha1).
    assert (Hmb : In (merge_entry (g_start b, lb)) cs) by (subst cs; apply in_map; exact Hb1).
    apply (ordered_no_cut cs _ Ho _ _ Hma Hmb). unfold cuts in *. cbn [merge_entry g_start g_end fst snd].
    assert (g_end a <= list_max (map fst la)).
    { apply list_max_ge. apply in_map_iff. exists (g_end a, g_text a). auto. }
    lia.
Qed.

Lemma get_changes_none d : dict_ok d -> get_changes d = None ->
  exists a b, In a (dict_edits d) /\ In b (dict_edits d) /\ cuts a b.
Proof.
  intros Hok H. destruct (sort_ok d Hok) as (H1 & H2 & H3). unfold get_changes in H.
  destruct (sort_dict d) as [|(s, c) r] eqn:E; [discriminate|].
  destruct (get_changes_from_none _ H1 H2 _ H) as [(s' & l' & Hh & Hlt)|(a & b & Ha & Hb & Hab)].
  - injection Hh as <- <-. lia.
  - exists a, b. split; [|split; [|exact Hab]]; apply (same_groups_in _ _ _ H3); assumption.
Qed.

(** ** The numbers reported *)

Lemma generate_text_tail text : forall cs tail z, ordered tail cs -> (forall c, In c cs -> g_end c <= length text) ->
  last_opt cs = Some z ->
  exists mid, generate_text text tail cs = mid ++ skipn (g_end z) text /\ length mid = added_from tail cs.
Proof.
  induction cs as [|c cs IH]; intros tail z H Hl Hz; [discriminate|].
  destruct H as (H1 & H2 & H4). cbn [generate_text added_from].
  assert (Hc : g_end c <= length text) by (apply Hl; left; reflexivity).
  assert (Hpre : length (if tail <? g_start c then slice text tail (g_start c) else []) = g_start c - tail).
  { destruct (tail <? g_start c) eqn:E; [rewrite slice_length; lia|simpl; lia]. }
  destruct cs as [|d cs].
  - injection Hz as <-. eexists. split; [cbn [generate_text]; unfold from; rewrite app_assoc; reflexivity|].
    rewrite app_length, Hpre. simpl. lia.
  - destruct (IH (g_end c) z H4 (fun x Hx => Hl x (or_intror Hx))) as (mid & E1 & E2).
    { unfold last_opt in *. change (rev (c :: d :: cs)) with (rev (d :: cs) ++ [c]) in Hz.
      destruct (rev (d :: cs)) eqn:Er; [|exact Hz].
      assert (length (rev (d :: cs)) = 0) by (rewrite Er; reflexivity). rewrite rev_length in H. discriminate. }
    rewrite E1. eexists. split; [rewrite !app_assoc; reflexivity|].
    rewrite !app_length, Hpre, E2. lia.
Qed.

Lemma last_opt_in {A} (l : list A) x : last_opt l = Some x -> In x l.
Proof. intros H. apply last_opt_some in H as (l' & ->). apply in_app_iff. right; left; reflexivity. Qed.

Lemma summary_splice text cs tail : cs <> [] -> ordered tail cs -> (forall c, In c cs -> g_end c <= length text) ->
  exists p r a, summary cs = Some (p, r, a) /\ splice_of text (update_text text cs) p r a.
Proof.
  intros Hne H Hl. destruct cs as [|c cs]; [congruence|].
  destruct (last_opt (c :: cs)) as [z|] eqn:Ez; [|apply last_opt_none in Ez; discriminate].
  unfold summary. rewrite Ez. do 3 eexists. split; [reflexivity|].
  assert (Ho : ordered (g_start c) (c :: cs)) by (destruct H as (H1 & H2 & H4); cbn [ordered]; auto).
  destruct (generate_text_tail text _ _ z Ho Hl Ez) as (mid & E1 & E2).
  pose proof (last_opt_in _ _ Ez) as Hz. destruct (ordered_in _ _ Ho z Hz) as [Hz1 Hz2]. pose proof (Hl z Hz) as Hz3.
  split; [lia|]. exists mid. split; [exact E2|]. replace (g_start c + (g_end z - g_start c)) with (g_end z) by lia.
  rewrite <- E1. unfold update_text. cbn [generate_text]. rewrite Nat.ltb_irrefl. cbn [app].
  f_equal. rewrite <- slice_0. destruct (0 <? g_start c) eqn:E; [reflexivity|]. symmetry. apply slice_nil. lia.
Qed.

(** ** States *)

Lemma effective_does text e : in_text text e -> effective text e = does_something text e.
Proof.
  intros [H1 H2]. unfold effective, does_something.
  assert (Hl : length (slice text (g_start e) (g_end e)) = g_end e - g_start e) by (rewrite slice_length; lia).
  destruct (str_eqb (slice text (g_start e) (g_end e)) (g_text e)) eqn:E.
  - apply str_eqb_spec in E. rewrite <- E, Hl. rewrite Nat.eqb_refl. cbn [negb orb]. rewrite andb_false_r. reflexivity.
  - cbn [negb]. rewrite orb_true_r, andb_true_r. destruct (length (g_text e) =? 0) eqn:E1; [|reflexivity].
    destruct (Nat.eqb_spec (g_start e) (g_end e)) as [E2|E2]; [|reflexivity]. exfalso.
    destruct (g_text e) eqn:E3; [|simpl in E1; lia]. rewrite slice_nil in E by lia. discriminate.
Qed.

Lemma bound_le total i : bound total i <= total.
Proof. unfold bound. destruct (i <? 0)%Z eqn:E; lia. Qed.

Lemma parse_key_ok text k i j t : parse_key (length text) k = Some (i, j) -> in_text text (Change i j t).
Proof.
  unfold in_text. cbn [g_start g_end]. destruct k as [z|a b]; cbn [parse_key]; intros H.
  - destruct (z <? 0)%Z eqn:E1; destruct (_ && _)%Z eqn:E2; inversion H; subst; lia.
  - inversion H as [[H1 H2]]. clear H H1 H2.
    assert (match a with None => 0 | Some x => bound (length text) x end <= length text)
      by (destruct a; [apply bound_le|lia]).
    assert (match b with None => length text | Some x => bound (length text) x end <= length text)
      by (destruct b; [apply bound_le|lia]).
    destruct (_ <? _) eqn:E; lia.
Qed.

Lemma parse_key_span total i j : parse_key total (KSlice (Some i) (Some j)) = Some (key_span total i j).
Proof.
  unfold parse_key, key_span, bound. f_equal. f_equal.
  - destruct (i <? 0)%Z eqn:E; lia.
  - destruct (i <? 0)%Z eqn:E; destruct (j <? 0)%Z eqn:E1; destruct (_ <? _) eqn:E2; lia.
Qed.

Lemma key_piece_parse total k : key_piece total k = parse_key total k.
Proof.
  destruct k as [i|i j]; cbn [key_piece parse_key].
  - destruct (Z.ltb_spec i 0) as [H|H].
    + destruct (Z.leb_spec (- Z.of_nat total) i) as [H1|H1]; cbn [andb].
      * replace (i <? Z.of_nat total)%Z with true by lia. replace ((0 <=? i + Z.of_nat total) && (i + Z.of_nat total <? Z.of_nat total))%Z with true by lia.
        cbv zeta. rewrite <- (Z.mod_unique i (Z.of_nat total) (-1) (i + Z.of_nat total)) by lia. f_equal. f_equal. lia.
      * replace ((0 <=? i + Z.of_nat total) && (i + Z.of_nat total <? Z.of_nat total))%Z with false by lia. reflexivity.
    + replace (- Z.of_nat total <=? i)%Z with true by lia. replace (0 <=? i)%Z with true by lia. cbn [andb].
      destruct (Z.ltb_spec i (Z.of_nat total)) as [H1|H1]; [|reflexivity].
      cbv zeta. rewrite Z.mod_small by lia. f_equal. f_equal. lia.
  - rewrite <- parse_key_span. unfold parse_key, bound.
    destruct i as [i|], j as [j|]; try reflexivity; cbn [Z.ltb Z.compare Z.to_nat];
      rewrite ?Nat.min_0_r; try replace (Z.of_nat total <? 0)%Z with false by lia; rewrite ?Nat2Z.id, ?Nat.min_id; reflexivity.
Qed.

(** The pending edits are [es], up to the order of edits with different starts. *)
Definition pending (text : str) (d : dict) (es : list change) : Prop :=
  dict_ok d /\ same_groups (dict_edits d) es /\ (forall e, In e es -> in_text text e) /\ (es = [] <-> d = []).

Lemma pending_nil text : pending text [] [].
Proof.
  split; [split; [constructor|intros x []]|]. split; [intros p; reflexivity|]. split; [intros e []|tauto].
Qed.

Lemma dict_add_in x s e t d : In x (dict_add s e t d) ->
  In x d \/ x = (s, [(e, t)]) \/ exists l, In (s, l) d /\ x = (s, l ++ [(e, t)]).
Proof.
  induction d as [|(k, l) d IH]; cbn [dict_add].
  - intros [<-|[]]. auto.
  - destruct (k =? s) eqn:E.
    + assert (k = s) by lia. subst k. intros [<-|H]; [right; right; exists l; split; [left; reflexivity|reflexivity]|].
      left; right; exact H.
    + intros [<-|H]; [left; left; reflexivity|]. destruct (IH H) as [H1|[H1|(m & H1 & H2)]].
      * left; right; exact H1.
      * auto.
      * right; right. exists m. split; [right; exact H1|exact H2].
Qed.

Lemma pending_add text d es s e t : pending text d es -> in_text text (Change s e t) ->
  pending text (dict_add s e t d) (es ++ [Change s e t]).
Proof.
  intros ((H1 & H2) & H3 & H4 & H5) Hin. split; [|split; [|split]].
  - split; [apply dict_add_nodup; exact H1|]. intros x Hx. destruct Hin as [Hin _]. cbn [g_start g_end] in Hin.
    destruct (dict_add_in _ _ _ _ _ Hx) as [H|[->|(l & Hl & ->)]].
    + apply H2. exact H.
    + cbn [fst snd]. split; [discriminate|]. intros et [<-|[]]. exact Hin.
    + destruct (H2 _ Hl) as [_ H6]. cbn [fst snd] in *. split; [destruct l; discriminate|].
      intros et Het. apply in_app_iff in Het as [Het|[<-|[]]]; [apply H6; exact Het|exact Hin].
  - intros p. rewrite (dict_add_edits s e t d H1 p), !filter_app'. f_equal. apply H3.
  - intros x Hx. apply in_app_iff in Hx as [Hx|[<-|[]]]; [apply H4; exact Hx|exact Hin].
  - split; intros H; [destruct es; discriminate|]. exfalso. destruct d as [|(k, l) d]; [discriminate|].
    cbn [dict_add] in H. destruct (k =? s); discriminate.
Qed.

Lemma apply_ok text c d es : pending text d es -> (forall a b, In a es -> In b es -> ~ cuts a b) ->
  exists out, m_apply (MState text c d) = (MState (edited text es) c [], out)
    /\ match out with
       | Quiet => es = []
       | TextChanged p r a => es <> [] /\ splice_of text (edited text es) p r a
       | Raised => False
       end.
Proof.
  intros (H1 & H2 & H3 & H5) Hc. unfold m_apply. cbn [m_pend m_text m_ctx]. destruct d as [|x d].
  - assert (es = []) by tauto. subst es. exists Quiet. split; [|reflexivity]. f_equal. f_equal.
    pose proof (update_text_edited text [] I) as E. unfold update_text in E. cbn [generate_text] in E.
    unfold from in E. cbn [skipn] in E. apply E. intros c0 [].
  - assert (Hes : es <> []) by (intros E; apply H5 in E; discriminate).
    destruct (get_changes (x :: d)) as [cs|] eqn:E.
    + destruct (get_changes_some text _ _ H1 ltac:(discriminate) E) as (C1 & (tail & C2) & C3 & C4 & _).
      { intros e He. apply H3. apply (same_groups_in _ _ _ H2). exact He. }
      destruct (summary_splice text cs tail C1 C2 C3) as (p & r & a & E1 & E2). rewrite E1.
      assert (Ho : ordered 0 cs) by (destruct cs; [exact I|]; destruct C2 as (? & ? & ?); cbn [ordered]; repeat split; auto; lia).
      assert (E3 : update_text text cs = edited text es).
      { rewrite update_text_edited by assumption. rewrite C4. apply edited_same. exact H2. }
      rewrite E3 in *. eexists. split; [reflexivity|]. cbv beta iota. auto.
    + exfalso. destruct (get_changes_none _ H1 E) as (a & b & Ha & Hb & Hab).
      apply (Hc a b); [| |exact Hab]; apply (same_groups_in _ _ _ H2); assumption.
Qed.

Lemma apply_cut text c d es a b : pending text d es -> In a es -> In b es -> cuts a b ->
  m_apply (MState text c d) = (MState text c d, Raised).
Proof.
  intros (H1 & H2 & H3 & H5) Ha Hb Hab. unfold m_apply. cbn [m_pend]. destruct d as [|x d].
  - assert (es = []) by tauto. subst es. destruct Ha.
  - destruct (get_changes (x :: d)) as [cs|] eqn:E; [|reflexivity]. exfalso.
    destruct (get_changes_some text _ _ H1 ltac:(discriminate) E) as (_ & _ & _ & _ & C5).
    { intros e He. apply H3. apply (same_groups_in _ _ _ H2). exact He. }
    apply (C5 a b); [| |exact Hab]; apply (same_groups_in _ _ _ (same_groups_sym _ _ H2)); assumption.
Qed.

Definition batch text ops := filter (does_something text) (flat_map (edit_of text) ops).

Lemma inside_run text : forall ops n m d es, 1 <= n -> inside n ops m -> pending text d es ->
  exists d' outs, m_run (MState text n d) ops = (MState text m d', outs) /\ pending text d' (es ++ batch text ops)
    /\ Forall (fun o => o = Quiet \/ o = Raised) outs.
Proof.
  induction ops as [|o ops IH]; intros n m d es Hn Hi Hp.
  - simpl in Hi. subst m. exists d, []. split; [reflexivity|]. unfold batch. simpl. rewrite app_nil_r. auto.
  - destruct o as [|exc|k t|t]; cbn [inside] in Hi.
    + destruct (IH (S n) m d es ltac:(lia) Hi Hp) as (d' & outs & E & Hp' & Ho).
      exists d', (Quiet :: outs). cbn [m_run m_op]. unfold m_enter. cbn [m_text m_ctx m_pend]. rewrite E.
      split; [reflexivity|]. split; [exact Hp'|]. constructor; auto.
    + destruct exc; [destruct Hi|]. destruct Hi as [H1 Hi].
      destruct (IH (n - 1) m d es ltac:(lia) Hi Hp) as (d' & outs & E & Hp' & Ho).
      exists d', (Quiet :: outs). cbn [m_run m_op]. unfold m_exit. cbn [m_text m_ctx m_pend].
      replace (1 <? n) with true by lia. rewrite E.
      split; [reflexivity|]. split; [exact Hp'|]. constructor; auto.
    + cbn [m_run m_op]. unfold m_setitem. cbn [m_text m_ctx m_pend]. unfold batch. cbn [flat_map edit_of]. rewrite key_piece_parse.
      destruct (parse_key (length text) k) as [(i, j)|] eqn:Ek.
      * pose proof (parse_key_ok text k i j t Ek) as Hin. rewrite (effective_does _ _ Hin). cbn [app filter].
        destruct (does_something text (Change i j t)) eqn:Ed.
        -- replace (n =? 0) with false by lia.
           destruct (IH n m _ _ Hn Hi (pending_add _ _ _ _ _ _ Hp Hin)) as (d' & outs & E & Hp' & Ho).
           rewrite E. do 2 eexists. split; [reflexivity|]. rewrite <- app_assoc in Hp'. split; [exact Hp'|].
           constructor; auto.
        -- destruct (IH n m d es Hn Hi Hp) as (d' & outs & E & Hp' & Ho). rewrite E.
           do 2 eexists. split; [reflexivity|]. split; [exact Hp'|]. constructor; auto.
      * destruct (IH n m d es Hn Hi Hp) as (d' & outs & E & Hp' & Ho). rewrite E.
        do 2 eexists. split; [reflexivity|]. split; [exact Hp'|]. constructor; auto.
    + destruct Hi.
Qed.

Lemma m_run_app s a b : m_run s (a ++ b) =
  let '(s1, o1) := m_run s a in let '(s2, o2) := m_run s1 b in (s2, o1 ++ o2).
Proof.
  revert s. induction a as [|o a IH]; intros s; cbn [app m_run].
  - destruct (m_run s b); reflexivity.
  - destruct (m_op s o) as [s' r]. rewrite IH. destruct (m_run s' a) as [s1 o1]. destruct (m_run s1 b). reflexivity.
Qed.

(** A whole batch that succeeds. *)
Lemma batch_ok text ops : inside 1 ops 1 ->
  (forall a b, In a (batch text ops) -> In b (batch text ops) -> ~ cuts a b) ->
  exists outs out, m_run (MState text 0 []) (Enter :: ops ++ [Exit_ false])
    = (MState (edited text (batch text ops)) 0 [], outs ++ [out])
    /\ Forall (fun o => o = Quiet \/ o = Raised) outs
    /\ match out with
       | Quiet => batch text ops = []
       | TextChanged p r a => batch text ops <> [] /\ splice_of text (edited text (batch text ops)) p r a
       | Raised => False
       end.
Proof.
  intros Hi Hc. destruct (inside_run text ops 1 1 [] [] ltac:(lia) Hi (pending_nil text)) as (d & outs & E & Hp & Ho).
  cbn [app] in Hp. destruct (apply_ok text 0 d _ Hp Hc) as (out & Ea & Hout).
  exists (Quiet :: outs), out. split; [|split; [constructor; auto|exact Hout]].
  cbn [m_run m_op]. unfold m_enter. cbn [m_text m_ctx m_pend]. rewrite m_run_app, E.
  cbn [m_run m_op]. unfold m_exit. cbn [m_text m_ctx m_pend]. replace (1 <? 1) with false by reflexivity.
  rewrite Ea. reflexivity.
Qed.

(** A whole batch that is rejected. *)
Lemma batch_cut text ops a b : inside 1 ops 1 -> In a (batch text ops) -> In b (batch text ops) -> cuts a b ->
  exists outs d, m_run (MState text 0 []) (Enter :: ops ++ [Exit_ false]) = (MState text 0 d, outs ++ [Raised])
    /\ pending text d (batch text ops).
Proof.
  intros Hi Ha Hb Hab. destruct (inside_run text ops 1 1 [] [] ltac:(lia) Hi (pending_nil text)) as (d & outs & E & Hp & Ho).
  cbn [app] in Hp. pose proof (apply_cut text 0 d _ a b Hp Ha Hb Hab) as Ea.
  exists (Quiet :: outs), d. split; [|exact Hp].
  cbn [m_run m_op]. unfold m_enter. cbn [m_text m_ctx m_pend]. rewrite m_run_app, E.
  cbn [m_run m_op]. unfold m_exit. cbn [m_text m_ctx m_pend]. replace (1 <? 1) with false by reflexivity.
  rewrite Ea. reflexivity.
Qed.

Lemma batch_exception text ops n : inside 1 ops n ->
  exists outs, m_run (MState text 0 []) (Enter :: ops ++ [Exit_ true]) = (MState text 0 [], outs)
    /\ Forall (fun o => o = Quiet \/ o = Raised) outs.
Proof.
  intros Hi. destruct (inside_run text ops 1 n [] [] ltac:(lia) Hi (pending_nil text)) as (d & outs & E & Hp & Ho).
  exists (Quiet :: outs ++ [Quiet]). cbn [m_run m_op]. unfold m_enter. cbn [m_text m_ctx m_pend]. rewrite m_run_app, E.
  cbn [m_run m_op]. unfold m_exit. cbn [m_text m_ctx m_pend]. split; [reflexivity|].
  constructor; [auto|]. apply Forall_app. split; [exact Ho|]. constructor; auto.
Qed.

(** After a rejected batch nothing changes the text any more. *)
Lemma frozen text a b : cuts a b -> forall ops n d es, pending text d es -> In a es -> In b es ->
  Forall no_exception ops ->
  exists n' d' outs, m_run (MState text n d) ops = (MState text n' d', outs)
    /\ Forall (fun o => o = Quiet \/ o = Raised) outs.
Proof.
  intros Hab. induction ops as [|o ops IH]; intros n d es Hp Ha Hb Hne.
  - exists n, d, []. auto.
  - inversion Hne as [|? ? Ho Hne']; subst.
    assert (Hset : forall k t, exists d' es' r, m_setitem (MState text n d) k t = (MState text n d', r)
       /\ pending text d' es' /\ In a es' /\ In b es' /\ (r = Quiet \/ r = Raised)).
    { intros k t. unfold m_setitem. cbn [m_text m_ctx m_pend].
      destruct (parse_key (length text) k) as [(i, j)|] eqn:Ek; [|exists d, es, Raised; auto 10].
      destruct (effective text (Change i j t)); [|exists d, es, Quiet; auto 10].
      pose proof (pending_add _ _ _ _ _ _ Hp (parse_key_ok text k i j t Ek)) as Hp'.
      assert (Ha' : In a (es ++ [Change i j t])) by (apply in_app_iff; auto).
      assert (Hb' : In b (es ++ [Change i j t])) by (apply in_app_iff; auto).
      destruct (n =? 0); [|do 3 eexists; split; [reflexivity|]; split; [exact Hp'|]; auto].
      rewrite (apply_cut text n _ _ a b Hp' Ha' Hb' Hab). do 3 eexists; split; [reflexivity|]; split; [exact Hp'|]; auto. }
    assert (Hstep : exists n1 d1 es1 r, m_op (MState text n d) o = (MState text n1 d1, r)
       /\ pending text d1 es1 /\ In a es1 /\ In b es1 /\ (r = Quiet \/ r = Raised)).
    { destruct o as [|exc|k t|t]; cbn [m_op].
      - exists (S n), d, es, Quiet. auto 10.
      - destruct exc; [exfalso; apply Ho; reflexivity|]. unfold m_exit. cbn [m_text m_ctx m_pend].
        destruct (1 <? n); [exists (n - 1), d, es, Quiet; auto 10|].
        rewrite (apply_cut text 0 _ _ a b Hp Ha Hb Hab). exists 0, d, es, Raised. auto 10.
      - destruct (Hset k t) as (d' & es' & r & E & H). exists n, d', es', r. auto.
      - cbn [m_ctx]. destruct (n =? 0); [|exists n, d, es, Raised; auto 10].
        destruct (Hset (KSlice None None) t) as (d' & es' & r & E & H). exists n, d', es', r. auto. }
    destruct Hstep as (n1 & d1 & es1 & r & E & Hp1 & Ha1 & Hb1 & Hr).
    destruct (IH n1 d1 es1 Hp1 Ha1 Hb1 Hne') as (n' & d' & outs & E' & Ho').
    exists n', d', (r :: outs). cbn [m_run]. rewrite E, E'. split; [reflexivity|]. constructor; auto.
Qed.

(** An edit that changes nothing may be left out. *)
Lemma edited_skip text a e b : in_text text e -> changes_nothing text e ->
  (forall x, In x (a ++ b) -> g_start x <> g_start e /\ ~ cuts x e /\ ~ cuts e x) ->
  edited text (a ++ e :: b) = edited text (a ++ b).
Proof.
  intros [Hi1 Hi2] Hn Hx. unfold changes_nothing in Hn.
  assert (Hfil : forall p, filter (fun x => g_start x =? p) (a ++ e :: b)
            = filter (fun x => g_start x =? p) a ++ (if g_start e =? p then [e] else []) ++ filter (fun x => g_start x =? p) b).
  { intros p. rewrite filter_app'. cbn [filter]. destruct (g_start e =? p); reflexivity. }
  assert (Hout : forall p, ~ (g_start e <= p < g_end e) -> at_position text (a ++ e :: b) p = at_position text (a ++ b) p).
  { intros p Hp. unfold at_position. f_equal.
    - rewrite Hfil, filter_app'. destruct (g_start e =? p) eqn:E; [|reflexivity].
      rewrite !map_app, !concat_app. f_equal. cbn [map concat].
      assert (g_text e = []) by (rewrite <- Hn; apply slice_nil; lia). rewrite H. reflexivity.
    - rewrite !covered_app. change (e :: b) with ([e] ++ b). rewrite covered_app.
      replace (covered [e] p) with false; [reflexivity|]. unfold covered. cbn [existsb]. lia. }
  change (edited text (a ++ e :: b)) with (seg text (a ++ e :: b) 0 (S (length text))).
  change (edited text (a ++ b)) with (seg text (a ++ b) 0 (S (length text))).
  rewrite !(seg_split _ _ 0 (g_start e) (S (length text))) by lia.
  rewrite !(seg_split _ _ (g_start e) (g_end e) (S (length text))) by lia.
  f_equal; [apply seg_ext; intros p Hp; apply Hout; lia|].
  f_equal; [|apply seg_ext; intros p Hp; apply Hout; lia].
  assert (Hfar : forall x, In x (a ++ b) -> g_end e <= g_start x \/ g_end x <= g_start e /\ g_start x < g_start e).
  { intros x Hin. destruct (Hx x Hin) as (H1 & H2 & H3). unfold cuts in *. lia. }
  rewrite (seg_plain text (a ++ b)) by (auto; lia). rewrite Hn.
  destruct (Nat.eq_dec (g_start e) (g_end e)) as [E|E].
  - rewrite seg_nil by lia. rewrite <- Hn. symmetry. apply slice_nil. lia.
  - rewrite (seg_split _ _ (g_start e) (S (g_start e))) by lia. rewrite seg_one.
    replace (seg text (a ++ e :: b) (S (g_start e)) (g_end e)) with (@nil nat).
    + rewrite app_nil_r. unfold at_position. rewrite Hfil, Nat.eqb_refl.
      rewrite (filter_none _ a); [|intros x Hin; destruct (Hx x (in_or_app _ _ _ (or_introl Hin))) as [H _]; lia].
      rewrite (filter_none _ b); [|intros x Hin; destruct (Hx x (in_or_app _ _ _ (or_intror Hin))) as [H _]; lia].
      rewrite covered_app. change (e :: b) with ([e] ++ b). rewrite covered_app.
      replace (covered [e] (g_start e)) with true by (unfold covered; cbn [existsb]; lia).
      rewrite orb_true_r. cbn [app map concat]. rewrite !app_nil_r. reflexivity.
    + symmetry. apply concat_all_nil. intros s Hs. apply in_map_iff in Hs as (p & <- & Hp). apply in_seq in Hp.
      unfold at_position. rewrite filter_none.
      * rewrite covered_app. change (e :: b) with ([e] ++ b). rewrite covered_app.
        replace (covered [e] p) with true by (unfold covered; cbn [existsb]; lia). rewrite orb_true_r. reflexivity.
      * intros x Hin. apply in_app_iff in Hin. cbn [In] in Hin.
        assert (Hc : x = e \/ In x (a ++ b)) by (rewrite in_app_iff; intuition congruence).
        destruct Hc as [->|Hc]; [lia|]. specialize (Hfar x Hc). lia.
Qed.

Lemma edited_batch text : forall es pre, (forall e, In e (pre ++ es) -> in_text text e) ->
  NoDup (map g_start (pre ++ es)) -> (forall a b, In a (pre ++ es) -> In b (pre ++ es) -> ~ cuts a b) ->
  edited text (pre ++ es) = edited text (pre ++ filter (does_something text) es).
Proof.
  induction es as [|e es IH]; intros pre Hin Hnd Hc; [reflexivity|]. cbn [filter].
  destruct (does_something text e) eqn:E.
  - change (pre ++ e :: es) with (pre ++ [e] ++ es) in *.
    change (pre ++ e :: filter (does_something text) es) with (pre ++ [e] ++ filter (does_something text) es).
    rewrite app_assoc in *. rewrite app_assoc. apply IH; assumption.
  - rewrite edited_skip.
    + apply IH.
      * intros x Hx. apply Hin. apply in_app_iff in Hx as [Hx|Hx]; apply in_app_iff; [auto|right; right; exact Hx].
      * rewrite map_app in *. cbn [map] in Hnd. apply NoDup_remove_1 in Hnd. exact Hnd.
      * intros a b Ha Hb. apply Hc; rewrite in_app_iff in *; cbn [In]; tauto.
    + apply Hin. apply in_app_iff. right; left; reflexivity.
    + unfold changes_nothing. unfold does_something in E. apply str_eqb_spec.
      destruct (str_eqb _ _); [reflexivity|discriminate].
    + intros x Hx. rewrite map_app in Hnd. cbn [map] in Hnd. apply NoDup_remove_2 in Hnd.
      rewrite <- map_app in Hnd. split; [|split].
      * intros Eq. apply Hnd. rewrite <- Eq. apply in_map. exact Hx.
      * apply Hc; rewrite in_app_iff in *; cbn [In]; tauto.
      * apply Hc; rewrite in_app_iff in *; cbn [In]; tauto.
Qed.

Lemma edits_in_text text ops e : In e (flat_map (edit_of text) ops) -> in_text text e.
Proof.
  intros H. apply in_flat_map in H as (o & _ & H). destruct o as [| |k t|]; try destruct H.
  cbn [edit_of] in H. rewrite key_piece_parse in H. destruct (parse_key (length text) k) as [(i, j)|] eqn:E; [|destruct H].
  destruct H as [<-|[]]. exact (parse_key_ok text k i j t E).
Qed.

Lemma inside_app a b : forall n m, inside n (a ++ b) m -> exists k, inside n a k.
Proof.
  induction a as [|o a IH]; intros n m H; [exists n; reflexivity|].
  destruct o as [|exc|k t|t]; cbn [app inside] in *; try solve [eauto]; try solve [destruct H].
  destruct exc; [destruct H|]. destruct H as [H1 H2]. destruct (IH _ _ H2) as [k Hk]. exists k. auto.
Qed.

Lemma single_ok text k t i j : parse_key (length text) k = Some (i, j) ->
  does_something text (Change i j t) = true ->
  exists p r a, m_setitem (MState text 0 []) k t = (MState (firstn i text ++ t ++ skipn j text) 0 [], TextChanged p r a)
    /\ splice_of text (firstn i text ++ t ++ skipn j text) p r a.
Proof.
  intros Ek Hd. pose proof (parse_key_ok text k i j t Ek) as Hin.
  unfold m_setitem. cbn [m_text m_ctx m_pend]. rewrite Ek, (effective_does _ _ Hin), Hd, Nat.eqb_refl.
  pose proof (pending_add _ _ _ _ _ _ (pending_nil text) Hin) as Hp. cbn [app] in Hp.
  destruct (apply_ok text 0 _ _ Hp) as (out & E & Ho).
  { intros a b [<-|[]] [<-|[]]. unfold cuts. lia. }
  assert (Ee : edited text [Change i j t] = firstn i text ++ t ++ skipn j text).
  { destruct Hin as [H1 H2]. cbn [g_start g_end] in *. rewrite <- update_text_edited.
    - unfold update_text. cbn [generate_text g_start g_end g_text]. unfold from. f_equal.
      destruct (0 <? i) eqn:E0; [apply slice_0|]. replace i with 0 by lia. reflexivity.
    - cbn [ordered g_start g_end]. repeat split; lia.
    - intros c [<-|[]]. exact H2. }
  rewrite Ee in *. destruct out as [|p r a|]; [discriminate| |destruct Ho]. exists p, r, a. split; [exact E|]. apply Ho.
Qed.
