(** The order of the rules in a style, for any rules. *)
From Coq Require Import Sorting.Permutation Sorting.Sorted.
From Verif Require Import Base CssModel CssSpec CssProofs CssCascadeProofs.

Section Order.
Variable V : Type.

Lemma max_spec_iff : forall l m, max_spec l = Some m -> In m l /\ forall x, In x l -> ~ lex_lt m x.
Proof.
  induction l as [| s l IH]; intros m E; [discriminate |]. cbn [max_spec] in E.
  destruct (max_spec l) as [m' |] eqn:El.
  - destruct (IH m' eq_refl) as [I H]. destruct (spec_lt s m') eqn:Es; injection E as <-.
    + split; [right; exact I |]. intros x [<- | Hx]; [| auto]. intros C. apply spec_lt_iff in Es.
      apply (lex_irrefl s). eapply lex_trans; eassumption.
    + split; [left; reflexivity |]. intros x [<- | Hx]; [apply lex_irrefl |]. intros C. apply spec_lt_not in Es.
      destruct (lex_total s m') as [L | [-> | L]]; [contradiction | apply (H x Hx); exact C |].
      apply (H x Hx). eapply lex_trans; eassumption.
  - injection E as <-. destruct l as [| y l]; [| cbn [max_spec] in El; destruct (max_spec l); discriminate].
    split; [left; reflexivity |]. intros x [<- | []]. apply lex_irrefl.
Qed.
Lemma max_spec_none : forall l, max_spec l = None <-> l = [].
Proof.
  intros [| s l]; cbn [max_spec]; [split; reflexivity |]. destruct (max_spec l); split; discriminate.
Qed.
Lemma key_rule_spec : forall (r : rule V) s, specificity (r_prelude r) = Some s -> rule_spec r s.
Proof.
  intros r s E. apply max_spec_iff in E as [I H]. split.
  - apply in_map_iff in I as (l & <- & Hl). exists l. split; [exact Hl | symmetry; apply spec_of_counts].
  - intros l Hl. rewrite <- spec_of_counts. apply H. apply in_map. exact Hl.
Qed.
Lemma rule_spec_unique : forall (r : rule V) s1 s2, rule_spec r s1 -> rule_spec r s2 -> s1 = s2.
Proof.
  intros r s1 s2 [(l1 & I1 & E1) H1] [(l2 & I2 & E2) H2]. specialize (H1 l2 I2). specialize (H2 l1 I1).
  rewrite E2 in H1. rewrite E1 in H2. destruct (lex_total s1 s2) as [L | [L | L]]; [contradiction | exact L | contradiction].
Qed.
Lemma with_keys_none : forall rules : list (rule V),
  with_keys V rules = None <-> exists r, In r rules /\ r_prelude r = [].
Proof.
  induction rules as [| r rules IH]; cbn [with_keys].
  - split; [discriminate | intros (r & [] & _)].
  - pose proof (max_spec_none (map spec_of (r_prelude r))) as M. fold (specificity (r_prelude r)) in M.
    destruct (specificity (r_prelude r)) as [s |].
    + destruct (with_keys V rules) as [l |].
      * split; [discriminate |]. intros (x & [<- | Hx] & E).
        { exfalso. assert (Some s = None) as C by (apply M; rewrite E; reflexivity). discriminate. }
        { assert (Some l = None) as C by (apply IH; exists x; auto). discriminate. }
      * split; [| reflexivity]. intros _. destruct (proj1 IH eq_refl) as (x & Hx & E). exists x.
        split; [right; exact Hx | exact E].
    + split; [| reflexivity]. intros _. exists r. split; [left; reflexivity |].
      assert (map spec_of (r_prelude r) = []) as E by (apply M; reflexivity). destruct (r_prelude r); [reflexivity | discriminate].
Qed.
Lemma with_keys_some : forall (rules : list (rule V)) ks, with_keys V rules = Some ks ->
  ks = map (fun r => (key_of V r, r)) rules /\ forall r, In r rules -> rule_spec r (key_of V r).
Proof.
  induction rules as [| r rules IH]; intros ks E; cbn [with_keys] in E.
  - injection E as <-. split; [reflexivity | intros r []].
  - destruct (specificity (r_prelude r)) as [s |] eqn:Es; [| discriminate].
    destruct (with_keys V rules) as [l |]; [| discriminate]. injection E as <-.
    destruct (IH l eq_refl) as [-> H]. assert (key_of V r = s) as K by (unfold key_of; rewrite Es; reflexivity).
    cbn [map]. rewrite K. split; [reflexivity |]. intros x [<- | Hx]; [rewrite K; apply key_rule_spec; exact Es | auto].
Qed.
Lemma style_none : forall (es : list (entry V)) rules, listed es rules ->
  style V es = None <-> exists r, In r rules /\ r_prelude r = [].
Proof.
  intros es rules L. unfold style. rewrite <- (listed_rules V es rules L), <- with_keys_none.
  destruct (with_keys V rules); cbn [option_map]; split; congruence.
Qed.
Lemma sorted_pick : forall A (P : A -> A -> Prop) l, StronglySorted P l -> forall a x b y c, l = a ++ x :: b ++ y :: c -> P x y.
Proof.
  intros A P l H. induction H as [| z l H IH F]; intros a x b y c E; [destruct a; discriminate |].
  destruct a as [| z' a]; cbn [app] in E; injection E as -> E.
  - rewrite Forall_forall in F. apply F. rewrite E. apply in_or_app. right. left. reflexivity.
  - apply (IH a x b y c E).
Qed.
Lemma style_general : forall (es : list (entry V)) rules st, listed es rules -> style V es = Some st ->
  exists T : list (nat * rule V), st = map snd T /\
    (forall i r, In (i, r) T <-> nth_error rules i = Some r) /\
    (forall a x b y c sx sy, T = a ++ x :: b ++ y :: c -> rule_spec (snd x) sx -> rule_spec (snd y) sy ->
      lex_lt sy sx \/ (sx = sy /\ fst y < fst x)).
Proof.
  intros es rules st L E. unfold style in E. rewrite <- (listed_rules V es rules L) in E.
  destruct (with_keys V rules) as [ks |] eqn:Ek; [| discriminate]. cbn [option_map] in E. injection E as <-.
  destruct (with_keys_some rules ks Ek) as [-> Hk].
  set (T := rev (sort_rules (tag (key_of V) 0 rules))).
  assert (forall k i r, In (k, (i, r)) T <-> k = key_of V r /\ nth_error rules i = Some r) as HT.
  { intros k i r. unfold T. rewrite <- in_rev. split.
    + intros H. apply (Permutation_in _ (sort_perm _ _)) in H. apply tag_In in H as (E & _ & N).
      rewrite Nat.sub_0_r in N. auto.
    + intros [E N]. apply (Permutation_in _ (Permutation_sym (sort_perm _ _))). apply tag_In.
      rewrite Nat.sub_0_r. split; [exact E |]. split; [lia | exact N]. }
  exists (map snd T). split; [| split].
  - rewrite <- (tag_untag (rule V) (key_of V) rules 0), sort_untag, map_map. unfold T. rewrite !map_rev, map_map. reflexivity.
  - intros i r. rewrite in_map_iff. split.
    + intros ([k x] & E & H). cbn [snd] in E. subst x. apply HT in H as [_ H]. exact H.
    + intros H. exists (key_of V r, (i, r)). split; [reflexivity | apply HT; auto].
  - assert (StronglySorted (fun a b => below b a) T) as S0 by (apply sorted_rev, sort_sorted, tag_sorted).
    intros a x b y c sx sy E Hx Hy.
    apply map_eq_app in E as (a' & t1 & E & <- & E1). destruct t1 as [| x' t1]; [discriminate |].
    cbn [map] in E1. injection E1 as E0 E1. apply map_eq_app in E1 as (b' & t2 & -> & <- & E2).
    destruct t2 as [| y' t2]; [discriminate |]. cbn [map] in E2. injection E2 as E3 <-.
    pose proof (sorted_pick _ _ T S0 a' x' b' y' t2 E) as B.
    destruct x' as [kx [ix rx]], y' as [ky [iy ry]]. cbn [snd] in E0, E3. subst x y. cbn [fst snd] in *.
    assert (In (kx, (ix, rx)) T) as Ix by (rewrite E; apply in_or_app; right; left; reflexivity).
    assert (In (ky, (iy, ry)) T) as Iy.
    { rewrite E. apply in_or_app. right. right. apply in_or_app. right. left. reflexivity. }
    apply HT in Ix as [-> Nx]. apply HT in Iy as [-> Ny].
    assert (sx = key_of V rx) as -> by (apply (rule_spec_unique rx); [exact Hx | apply Hk, (nth_error_In _ _ Nx)]).
    assert (sy = key_of V ry) as -> by (apply (rule_spec_unique ry); [exact Hy | apply Hk, (nth_error_In _ _ Ny)]).
    destruct B as [B | [B1 B2]]; [left; exact B | right; split; [symmetry; exact B1 | exact B2]].
Qed.
End Order.
