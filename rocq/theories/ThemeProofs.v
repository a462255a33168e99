(** Proofs about themes. *)
From Coq Require Import Permutation ZArith ZifyBool.
From Verif Require Import Base CssModel CssSpec CssProofs CssMatchProofs CssCascadeProofs CssOrderProofs CssColorModel TextFormatModel StandardActionModel ThemeModel ThemeSpec.
Import Strings.String.StringSyntax.

Section Theme.
Variable space : nat -> bool.
Variable lower : str -> str.

(** ** Words *)
Lemma split_at : forall a acc c b, space c = true -> split_from space acc (a ++ c :: b) = split_from space acc a ++ s_split space b.
Proof.
  unfold s_split. induction a as [| x a IH]; intros acc c b Hc; cbn [app split_from].
  - rewrite Hc. destruct acc; reflexivity.
  - destruct (space x); [destruct acc | apply IH; exact Hc]; rewrite (IH [] c b Hc); reflexivity.
Qed.
Lemma split_join : forall l, space 32 = true -> s_split space (py_join [32] l) = flat_map (s_split space) l.
Proof.
  intros l Hs. induction l as [| x l IH]; [reflexivity |]. cbn [flat_map]. rewrite <- IH. destruct l as [| y l].
  - cbn [py_join]. unfold s_split at 3. cbn [split_from]. rewrite app_nil_r. reflexivity.
  - change (py_join [32] (x :: y :: l)) with (x ++ 32 :: py_join [32] (y :: l)). unfold s_split at 1. apply split_at. exact Hs.
Qed.
Hypothesis space_32 : space 32 = true.
Hypothesis lower_app : forall a b, lower (a ++ b) = lower a ++ lower b.
Hypothesis lower_dot : lower [46] = [46].
Lemma class_join : forall names, names <> [] -> css_class lower names = py_join [32] (map (fun n => map dot_to_space (lower n)) names).
Proof.
  intros names N. unfold css_class. induction names as [| x names IH]; [congruence |]. destruct names as [| y names]; [reflexivity |].
  change (py_join [46] (x :: y :: names)) with (x ++ [46] ++ py_join [46] (y :: names)).
  rewrite !lower_app, lower_dot, !map_app, IH by discriminate. reflexivity.
Qed.
Lemma class_words : forall names c, names <> [] ->
  In c (s_split space (css_class lower names)) <-> exists n, In n names /\ In c (s_split space (map dot_to_space (lower n))).
Proof.
  intros names c N. rewrite class_join, split_join by assumption. rewrite in_flat_map. split.
  - intros (x & Hx & Hc). apply in_map_iff in Hx as (n & <- & Hn). eauto.
  - intros (n & Hn & Hc). eexists. split; [apply in_map; exact Hn | exact Hc].
Qed.
Lemma class_incl : forall n1 n2, n1 <> [] -> incl n1 n2 ->
  incl (s_split space (css_class lower n1)) (s_split space (css_class lower n2)).
Proof.
  intros n1 n2 N I c Hc. apply class_words in Hc as (n & Hn & Hc); [| exact N].
  apply class_words; [destruct n2; [destruct n1; [congruence | destruct (I _ (or_introl eq_refl))] | discriminate] |].
  exists n. split; [apply I; exact Hn | exact Hc].
Qed.

(** ** More classes *)
Definition covered (e1 e2 : elem) : Prop :=
  e_name e1 = e_name e2 /\ get_id e1 = get_id e2 /\ incl (get_classes space e1) (get_classes space e2) /\
  incl (e_pclasses e1) (e_pclasses e2) /\ incl (e_pelements e1) (e_pelements e2).
Lemma smem_incl : forall c l1 l2, incl l1 l2 -> smem c l1 = true -> smem c l2 = true.
Proof. intros c l1 l2 I H. apply smem_In, I, smem_In, H. Qed.
Lemma same_forall : forall (f g : str -> bool) l, (forall x, f x = g x) -> forallb f l = forallb g l.
Proof. intros f g l H. induction l as [| x l IH]; [reflexivity |]. cbn [forallb]. rewrite H, IH. reflexivity. Qed.
Lemma last_sel : forall sels s rest, rev sels = Sel s :: rest -> In s (sels_of sels).
Proof.
  intros sels s rest E. unfold sels_of. apply in_flat_map. exists (Sel s). split; [| left; reflexivity].
  apply in_rev. rewrite E. left. reflexivity.
Qed.
(** Two trees that differ in the element at a path only, which has no children. *)
Definition twins (r1 r2 : elem) (p : epath) (e1 e2 : elem) : Prop :=
  elem_at r1 p = Some e1 /\ elem_at r2 p = Some e2 /\ (forall c, pseudo_class r1 e1 p c = pseudo_class r2 e2 p c) /\
  (forall its, match_loop space lower r1 p its = match_loop space lower r2 p its).
Lemma twins_top : forall e1 e2, e_children e1 = [] -> e_children e2 = [] -> twins e1 e2 [] e1 e2.
Proof.
  intros e1 e2 C1 C2. split; [reflexivity |]. split; [reflexivity |]. split.
  - intros c. unfold pseudo_class. rewrite C1, C2. reflexivity.
  - assert (forall op, candidates op [] = []) as N.
    { intros [s | o]; [reflexivity |]. unfold candidates. destruct (str_eqb o op_child); [reflexivity |].
      destruct (str_eqb o op_desc); [reflexivity |]. destruct (str_eqb o op_next); reflexivity. }
    intros [| op [| sel rest]]; [reflexivity | reflexivity |]. cbn [match_loop]. rewrite N. reflexivity.
Qed.
Lemma twins_window : forall e1 e2, e_children e1 = [] -> e_children e2 = [] ->
  twins (append_child window e1) (append_child window e2) [0] e1 e2.
Proof.
  intros e1 e2 C1 C2. split; [reflexivity |]. split; [reflexivity |]. split.
  - intros c. unfold pseudo_class. rewrite C1, C2. reflexivity.
  - assert (forall op, candidates op [] = []) as N.
    { intros [s | o]; [reflexivity |]. unfold candidates. destruct (str_eqb o op_child); [reflexivity |].
      destruct (str_eqb o op_desc); [reflexivity |]. destruct (str_eqb o op_next); reflexivity. }
    assert (forall op, candidates op [0] = [[]] \/ candidates op [0] = []) as N0.
    { intros [s | o]; [right; reflexivity |]. unfold candidates. destruct (str_eqb o op_child); [left; reflexivity |].
      destruct (str_eqb o op_desc); [left; reflexivity |]. destruct (str_eqb o op_next); right; reflexivity. }
    intros [| op [| sel rest]]; [reflexivity | reflexivity |]. cbn [match_loop].
    destruct (N0 op) as [-> | ->]; [| reflexivity]. cbn [first_match].
    assert (match_item space lower (append_child window e1) [] sel = match_item space lower (append_child window e2) [] sel) as ->.
    { destruct sel as [s | o]; reflexivity. }
    destruct (_ && _); [| reflexivity]. destruct (match_item _ _ _ _ _) as [[|] |]; [| reflexivity | reflexivity].
    destruct rest as [| op' [| sel' rest]]; [reflexivity | reflexivity |]. cbn [match_loop]. rewrite N. reflexivity.
Qed.
Section Twins.
Variable r1 r2 : elem.
Variable p : epath.
Variable e1 e2 : elem.
Hypothesis T : twins r1 r2 p e1 e2.
Lemma covered_selector : forall s, covered e1 e2 -> s_attr s = [] ->
  match_selector space lower r1 p s = true -> match_selector space lower r2 p s = true.
Proof.
  intros s (Cn & Ci & Cc & Cp & Ce) A. destruct T as (E1 & E2 & P & _). unfold match_selector. rewrite E1, E2.
  unfold match_selector_of. rewrite A. cbn [forallb]. rewrite <- Cn, <- Ci. rewrite !andb_true_iff, !forallb_forall.
  intros (((((Hc & Hn) & Hi) & _) & Hp) & He).
  split; [split; [split; [split; [split |] |] |] |]; auto.
  - intros c Hx. apply (smem_incl _ _ _ Cc). apply Hc. exact Hx.
  - intros c Hx. specialize (Hp c Hx). rewrite <- P. destruct (pseudo_class r1 e1 p c); [exact Hp | apply (smem_incl _ _ _ Cp); exact Hp].
  - intros c Hx. apply (smem_incl _ _ _ Ce). apply He. exact Hx.
Qed.
Lemma covered_selectors : forall sels, covered e1 e2 -> (forall s, In s (sels_of sels) -> s_attr s = []) ->
  match_selectors space lower r1 p sels = Some true -> match_selectors space lower r2 p sels = Some true.
Proof.
  intros sels C A. unfold match_selectors. destruct (rev sels) as [| i rest] eqn:E; [discriminate |].
  destruct (negb (item_true i)); [discriminate |]. destruct i as [s | o]; [| discriminate]. cbn [match_item].
  destruct (match_selector space lower r1 p s) eqn:Es; [| discriminate].
  rewrite (covered_selector s C (A s (last_sel _ _ _ E)) Es). destruct T as (_ & _ & _ & ->). auto.
Qed.
Lemma covered_prelude : forall pre b, covered e1 e2 ->
  (forall l s, In l pre -> In s (sels_of l) -> s_attr s = []) ->
  match_prelude space lower r1 p pre = Some true -> match_prelude space lower r2 p pre = Some b -> b = true.
Proof.
  intros pre b C. induction pre as [| l pre IH]; intros A H1 H2; [discriminate |]. cbn [match_prelude] in *.
  assert (forall s, In s (sels_of l) -> s_attr s = []) as Al by (intros s; apply A; left; reflexivity).
  destruct (match_selectors space lower r1 p l) as [[|] |] eqn:E1; [| | discriminate].
  - rewrite (covered_selectors l C Al E1) in H2. congruence.
  - destruct (match_selectors space lower r2 p l) as [[|] |]; [congruence | | discriminate].
    apply IH; auto. intros l' s Hl. apply A. right. exact Hl.
Qed.
Lemma covered_select : forall V (rules : list (rule V)) sel1 sel2, covered e1 e2 ->
  (forall r, In r rules -> no_attributes r) ->
  select_element space lower V r1 p rules = Some sel1 -> select_element space lower V r2 p rules = Some sel2 ->
  incl sel1 sel2.
Proof.
  intros V rules. induction rules as [| r rules IH]; intros sel1 sel2 C A H1 H2; cbn [select_element] in H1, H2.
  - injection H1 as <-. intros x [].
  - destruct (match_prelude space lower r1 p (r_prelude r)) as [b1 |] eqn:E1; [| discriminate].
    destruct (match_prelude space lower r2 p (r_prelude r)) as [b2 |] eqn:E2; [| discriminate].
    destruct (select_element space lower V r1 p rules) as [s1 |]; [| discriminate].
    destruct (select_element space lower V r2 p rules) as [s2 |]; [| discriminate].
    injection H1 as <-. injection H2 as <-.
    assert (incl s1 s2) as I by (apply IH; auto; intros x Hx; apply A; right; exact Hx).
    destruct b1.
    + rewrite (covered_prelude _ b2 C (A r (or_introl eq_refl)) E1 E2).
      intros x [-> | Hx]; [left; reflexivity | right; apply I; exact Hx].
    + destruct b2; [apply incl_tl |]; exact I.
Qed.

(** ** The same for all selectors *)
Lemma same_select : forall V (rules : list (rule V)),
  (forall r l s, In r rules -> In l (r_prelude r) -> In s (sels_of l) ->
     match_selector space lower r1 p s = match_selector space lower r2 p s) ->
  select_element space lower V r1 p rules = select_element space lower V r2 p rules.
Proof.
  intros V rules. induction rules as [| r rules IH]; intros A; [reflexivity |]. cbn [select_element].
  rewrite IH by (intros x l s Hx; apply A; right; exact Hx).
  assert (match_prelude space lower r1 p (r_prelude r) = match_prelude space lower r2 p (r_prelude r)) as ->; [| reflexivity].
  specialize (A r). revert A. generalize (r_prelude r). intros pre A.
  induction pre as [| l pre IHp]; [reflexivity |]. cbn [match_prelude].
  rewrite IHp by (intros l' s Hr Hl; apply A; [exact Hr | right; exact Hl]).
  assert (match_selectors space lower r1 p l = match_selectors space lower r2 p l) as ->; [| reflexivity].
  unfold match_selectors. destruct (rev l) as [| i rest] eqn:E; [reflexivity |].
  destruct (negb (item_true i)); [reflexivity |]. destruct i as [s | o]; [| reflexivity]. cbn [match_item].
  rewrite (A l s (or_introl eq_refl) (or_introl eq_refl) (last_sel _ _ _ E)). destruct T as (_ & _ & _ & ->). reflexivity.
Qed.
Lemma alike_select : forall V (rules : list (rule V)), covered e1 e2 -> covered e2 e1 -> (forall r, In r rules -> no_attributes r) ->
  select_element space lower V r1 p rules = select_element space lower V r2 p rules.
Proof.
  intros V rules (Cn & Ci & Cc & Cp & Ce) (_ & _ & Cc' & Cp' & Ce') A. apply same_select. intros r l s Hr Hl Hs.
  destruct T as (E1 & E2 & P & _). unfold match_selector. rewrite E1, E2. unfold match_selector_of.
  rewrite (A r Hr l s Hl Hs), Cn, Ci. cbn [forallb].
  assert (forall a b, incl a b -> incl b a -> forall c, smem c a = smem c b) as Sm.
  { intros a b I J c. destruct (smem c a) eqn:Ea, (smem c b) eqn:Eb; try reflexivity.
    - rewrite (smem_incl _ _ _ I Ea) in Eb. discriminate.
    - rewrite (smem_incl _ _ _ J Eb) in Ea. discriminate. }
  rewrite (same_forall _ _ _ (Sm _ _ Cc Cc')), (same_forall _ _ _ (Sm _ _ Ce Ce')).
  f_equal. f_equal. apply same_forall. intros c. rewrite P, (Sm _ _ Cp Cp' c). reflexivity.
Qed.
End Twins.

(** ** The rules of the style are those of the sheet *)
Lemma style_In : forall V (es : list (entry V)) rules st r, listed es rules -> style V es = Some st -> In r st <-> In r rules.
Proof.
  intros V es rules st r L E. destruct (style_general V es rules st L E) as (T & -> & HT & _). rewrite in_map_iff. split.
  - intros ([i r'] & <- & I). apply HT in I. apply nth_error_In in I. exact I.
  - intros I. apply In_nth_error in I as [i I]. exists (i, r). split; [reflexivity | apply HT; exact I].
Qed.

(** ** Keys of the properties *)
Lemma add_props_keys : forall V kvs st st' key, add_props V st kvs = Some st' ->
  sget (fst st') key <> None <-> sget (fst st) key <> None \/ In key (map fst kvs).
Proof.
  intros V. induction kvs as [| [k0 v] kvs IH]; intros st st' key E; cbn [add_props] in E.
  - injection E as <-. cbn [map In]. tauto.
  - destruct (add_prop V st (k0, v)) as [st1 |] eqn:E1; [| discriminate]. rewrite (IH st1 st' key E). cbn [map In fst].
    assert (forall (d : list (str * list (pval V))) w, sget (sset d k0 w) key <> None <-> sget d key <> None \/ k0 = key) as Hs.
    { intros d w. induction d as [| [k1 v1] d IHd]; cbn [sset sget].
      - destruct (str_eqb k0 key) eqn:E0; [apply str_eqb_eq in E0; split; [tauto | discriminate] |].
        apply str_eqb_neq in E0. tauto.
      - destruct (str_eqb k1 k0) eqn:E0.
        + apply str_eqb_eq in E0. subst k1. cbn [sget]. destruct (str_eqb k0 key) eqn:E2.
          * apply str_eqb_eq in E2. split; [tauto | discriminate].
          * apply str_eqb_neq in E2. tauto.
        + cbn [sget]. destruct (str_eqb k1 key) eqn:E2; [split; [left; discriminate | discriminate] | exact IHd]. }
    assert (sget (fst st1) key <> None <-> sget (fst st) key <> None \/ k0 = key); [| tauto].
    destruct st as [res imp]. unfold add_prop in E1. destruct (last_opt v) as [x |]; [| discriminate].
    destruct (sget res k0) as [old |] eqn:Eo.
    + assert (sget res k0 <> None) as N by congruence.
      destruct (is_important V x && negb (smem k0 imp)); injection E1 as <-; cbn [fst]; [apply Hs |].
      split; [tauto |]. intros [H | <-]; assumption.
    + injection E1 as <-. cbn [fst]. apply Hs.
Qed.
Lemma properties_keys : forall V (rules : list (rule V)) res key, properties V rules = Some res ->
  sget res key <> None <-> exists r v, In r rules /\ In (key, v) (r_props r).
Proof.
  intros V rules res key E. unfold properties in E.
  destruct (add_props V ([], []) (flat_map r_props rules)) as [st |] eqn:Ea; [| discriminate]. injection E as <-.
  rewrite (add_props_keys V _ _ _ key Ea). cbn [fst sget]. rewrite in_map_iff. split.
  - intros [H | ([k0 v] & <- & I)]; [congruence |]. apply in_flat_map in I as (r & Hr & Hv). exists r, v. auto.
  - intros (r & v & Hr & Hv). right. exists (key, v). split; [reflexivity |]. apply in_flat_map. exists r. auto.
Qed.
End Theme.
