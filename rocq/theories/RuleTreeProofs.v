(** The decision tree of a rule has the same ways through it as the variations of the rule. *)
From Verif Require Import Base BaseFacts RuleValues RuleItemModel RuleItemSpec RuleVariationSpec RuleItemProofs RuleItemRuleProofs RuleVariationProofs RuleTreeModel RuleTreeSpec.
From Coq Require Import ZArith ZifyBool.

Lemma walk_app a : forall b p, walk (a ++ b) p <-> exists q r, p = q ++ r /\ walk a q /\ walk b r.
Proof.
  induction a as [|t a IH]; intros b p; cbn [app].
  - split; [intros H; exists [], p; repeat split; [constructor|exact H]|intros (q & r & -> & Hq & Hr); inversion Hq; exact Hr].
  - split.
    + intros H. inversion H as [|? ? p1 p2 H1 H2]; subst. apply IH in H2. destruct H2 as (q & r & -> & Hq & Hr). exists (p1 ++ q), r. rewrite app_assoc. split; [reflexivity|]. split; [constructor; assumption|exact Hr].
    + intros (q & r & -> & Hq & Hr). inversion Hq as [|? ? p1 p2 H1 H2]; subst. rewrite <- app_assoc. constructor; [exact H1|]. apply IH. eauto.
Qed.
Lemma walk_one t p : walk [t] p <-> path t p.
Proof.
  split; [intros H; inversion H as [|? ? p1 p2 H1 H2]; subst; inversion H2; subst; rewrite app_nil_r; exact H1|intros H; rewrite <- (app_nil_r p); constructor; [exact H|constructor]].
Qed.
Lemma walk_entry v p : walk [TEntry v] p <-> p = [v].
Proof. rewrite walk_one. split; [intros H; inversion H; reflexivity|intros ->; constructor]. Qed.
Lemma walk_tup t p : walk [TTup t] p <-> walk t p.
Proof. rewrite walk_one. split; [intros H; inversion H; assumption|intros H; constructor; exact H]. Qed.
Lemma walk_set ts p : walk [TSet (map TTup ts)] p <-> exists t, In t ts /\ walk t p.
Proof.
  rewrite walk_one. split.
  - intros H. inversion H as [| |? t ? Ht Hp]; subst. apply in_map_iff in Ht. destruct Ht as (t0 & <- & Ht). exists t0. split; [exact Ht|]. inversion Hp; assumption.
  - intros (t & Ht & Hp). apply (path_set _ (TTup t)); [apply in_map; exact Ht|constructor; exact Hp].
Qed.

Lemma omap_id {A} (l : list (option A)) : match omap (fun b => b) l with Some r => l = map Some r | None => In None l end.
Proof. induction l as [|[x|] l IH]; cbn [omap]; [reflexivity| |left; reflexivity]. destruct (omap (fun b => b) l); [cbn [map]; rewrite IH; reflexivity|right; exact IH]. Qed.
Lemma tbranch_cases o bs : bs <> [] -> match tbranch o bs with
  | Some ts => ~ In None bs /\ forall p, walk ts p <-> exists b, In (Some b) bs /\ walk b p
  | None => In None bs
  end.
Proof.
  intros Hn. unfold tbranch. pose proof (omap_id bs) as H. destruct (omap (fun b => b) bs) as [r|]; [|exact H].
  assert (Hin : forall b, In (Some b) bs <-> In b r). { intros b. rewrite H, in_map_iff. split; [intros (x & [= ->] & Hx); exact Hx|intros Hb; exists b; auto]. }
  assert (Hno : ~ In None bs). { rewrite H, in_map_iff. intros (x & E & _). discriminate. }
  destruct r as [|t [|t' r]]; [destruct bs; [congruence|discriminate]| |].
  - split; [exact Hno|]. intros p. rewrite walk_tup. split; [intros Hp; exists t; split; [apply Hin; left; reflexivity|exact Hp]|]. intros (b & Hb & Hp). apply Hin in Hb. destruct Hb as [<-|[]]. exact Hp.
  - split; [exact Hno|]. intros p. rewrite walk_set. split; intros (b & Hb & Hp); exists b; (split; [apply Hin; exact Hb|exact Hp]).
Qed.
Lemma oapp_cases {A} (l : list (option (list A))) : match fold_right oapp (Some []) l with
  | Some r => ~ In None l /\ forall x, In x r <-> exists b, In (Some b) l /\ In x b
  | None => In None l
  end.
Proof.
  induction l as [|x l IH]; cbn [fold_right]; [split; [intros []|intros x; split; [intros []|intros (b & [] & _)]]|].
  destruct x as [x|]; [|left; reflexivity]. destruct (fold_right oapp (Some []) l) as [r|]; cbn [oapp]; [|right; exact IH]. destruct IH as [H1 H2]. split; [intros [H|H]; [discriminate|exact (H1 H)]|].
  intros y. rewrite in_app_iff, H2. split; [intros [H|(b & Hb & H)]; [exists x; split; [left; reflexivity|exact H]|exists b; split; [right; exact Hb|exact H]]|].
  intros (b & [Eb|Hb] & Hy); [injection Eb as ->; left; exact Hy|right; eauto].
Qed.

(** Trees and variations that agree. *)
Definition agree (t : option (list vt)) (v : option (list (list vobj))) : Prop :=
  match t, v with Some ts, Some vs => forall p, walk ts p <-> In p vs | None, None => True | _, _ => False end.
Lemma agree_sum o (l : list obj) : l <> [] -> Forall (fun o => agree (titems o) (vars o)) l -> agree (tbranch o (map titems l)) (vsum (map vars l)).
Proof.
  intros Hl H. assert (Hn : map titems l <> []) by (destruct l; [congruence|discriminate]). pose proof (tbranch_cases o (map titems l) Hn) as H1. pose proof (oapp_cases (map vars l)) as H2.
  change (fold_right oapp (Some []) (map vars l)) with (vsum (map vars l)) in H2. rewrite Forall_forall in H.
  assert (HN : In None (map titems l) <-> In None (map vars l)).
  { rewrite !in_map_iff. split; intros (x & E & Hx); exists x; (split; [|exact Hx]); specialize (H x Hx); rewrite E in H; unfold agree in H; [destruct (vars x)|destruct (titems x)]; [contradiction|reflexivity|contradiction|reflexivity]. }
  unfold agree. destruct (tbranch o (map titems l)) as [ts|], (vsum (map vars l)) as [vs|]; [|apply (proj1 H1); apply HN; exact H2|apply (proj1 H2); apply HN; exact H1|exact I].
  destruct H1 as [_ H1], H2 as [_ H2]. intros p. rewrite H1, H2. split; intros (b & Hb & Hp); apply in_map_iff in Hb; destruct Hb as (x & E & Hx); pose proof (H x Hx) as Hax; rewrite E in Hax; unfold agree in Hax.
  - destruct (vars x) as [w|] eqn:Ew; [|contradiction]. exists w. split; [rewrite <- Ew; apply in_map; exact Hx|apply Hax; exact Hp].
  - destruct (titems x) as [w|] eqn:Ew; [|contradiction]. exists w. split; [rewrite <- Ew; apply in_map; exact Hx|apply Hax; exact Hp].
Qed.
Lemma agree_seq (f : obj -> option (list vt)) (g : obj -> option (list (list vobj))) l : Forall (fun o => agree (f o) (g o)) l -> agree (fold_right oapp (Some []) (map f l)) (vseq (map g l)).
Proof.
  induction 1 as [|o l Ho _ IH]; cbn [map fold_right].
  - intros p. split; [intros H; inversion H; left; reflexivity|intros [<-|[]]; constructor].
  - change (vseq (g o :: map g l)) with (vprod (g o) (vseq (map g l))). destruct (f o) as [t|], (g o) as [v|]; cbn in Ho; try contradiction; [|exact I].
    destruct (fold_right oapp (Some []) (map f l)) as [ts|], (vseq (map g l)) as [vs|]; cbn in IH; try contradiction; cbn [oapp vprod]; [|exact I].
    intros p. rewrite walk_app, in_flat_map. split.
    + intros (q & r & -> & Hq & Hr). exists r. split; [apply IH; exact Hr|]. apply in_map_iff. exists q. split; [reflexivity|]. apply Ho. exact Hq.
    + intros (r & Hr & Hp). apply in_map_iff in Hp. destruct Hp as (q & <- & Hq). exists q, r. split; [reflexivity|]. split; [apply Ho; exact Hq|apply IH; exact Hr].
Qed.
Lemma agree_entry v : agree (Some [TEntry v]) (Some [[v]]).
Proof. intros p. rewrite walk_entry. cbn [In]. split; [intros ->; auto|intros [<-|[]]; reflexivity]. Qed.
Lemma agree_one o b v : agree b v -> agree (tbranch o [b]) v.
Proof. destruct b as [t|], v as [w|]; cbn; try contradiction; [|trivial]. intros H p. rewrite walk_tup. apply H. Qed.

Theorem tree_agrees : forall o, full o -> agree (titems o) (vars o).
Proof.
  assert (Hmap : forall l, Forall (fun o => full o -> agree (titems o) (vars o)) l -> fold_right (fun o P => full o /\ P) True l -> Forall (fun o => agree (titems o) (vars o)) l).
  { intros l H1 H2. apply fold_and in H2. rewrite Forall_forall in *. auto. }
  refine (obj_ind' _ _ _ _ _ _ _ _ _ _ _); try (intros; exact I).
  - intros a _. apply agree_entry.
  - intros l Hl H. cbn [full titems vars] in *. apply agree_seq. auto.
  - intros p l _ Hl [H1 H2]. cbn [titems vars]. apply agree_sum; auto.
  - intros value l _ Hl H. cbn [full] in H. pose proof (Hmap l Hl H) as Ha.
    assert (Hgen : agree (tbranch (OTarget value l) (Some [TEntry ANumber] :: map titems l)) (oapp (Some [[ANumber]]) (vsum (map vars l)))).
    { pose proof (tbranch_cases (OTarget value l) (Some [TEntry ANumber] :: map titems l) ltac:(discriminate)) as H1.
      destruct l as [|x l]; [cbn; intros p; rewrite walk_tup, walk_entry; split; [intros ->; auto|intros [<-|[]]; reflexivity]|].
      pose proof (agree_sum OSkip (x :: l) ltac:(discriminate) Ha) as H2. pose proof (tbranch_cases OSkip (map titems (x :: l)) ltac:(discriminate)) as H3. set (bs := map titems (x :: l)) in *. set (vs0 := vsum (map vars (x :: l))) in *.
      destruct (tbranch (OTarget value (x :: l)) (Some [TEntry ANumber] :: bs)) as [ts|], (tbranch OSkip bs) as [ts'|]; destruct vs0 as [vs|]; cbn in H2; try contradiction; cbn [oapp agree].
      - destruct H1 as [_ H1], H3 as [_ H3]. intros p. rewrite H1. cbn [In app]. split.
        + intros (b & [[= <-]|Hb] & Hp); [left; apply walk_entry in Hp; auto|right; apply H2; apply H3; eauto].
        + intros [<-|Hp]; [exists [TEntry ANumber]; split; [left; reflexivity|apply walk_entry; reflexivity]|]. apply H2 in Hp. apply H3 in Hp. destruct Hp as (b & Hb & Hp). eauto.
      - destruct H1 as [H1 _]. apply H1. right. exact H3.
      - destruct H3 as [H3 _]. destruct H1 as [H1|H1]; [discriminate|exact (H3 H1)].
      - exact I. }
    cbn [titems vars]. destruct value as [a|vl| | | | | | | |]; try exact Hgen.
    + destruct (as_int a); [|exact I]. apply agree_one. apply agree_entry.
    + destruct vl as [|[a| | | | | | | | |] [|arg [|? ?]]]; try exact I. destruct (as_int a) as [i|]; [|exact I]. rewrite !py_get_map. destruct (py_get l i) as [x|] eqn:Eg; cbn [option_map]; [|exact I]. apply agree_one. apply py_get_in in Eg. rewrite Forall_forall in Ha. auto.
  - intros v Hv H. cbn [full titems vars] in *. destruct (is_item v).
    + cbn. intros p. rewrite (walk_set [[TEntry (VObj (OAtom ANone))]; [TEntry AString]]). split.
      * intros (t & [<-|[<-|[]]] & Ht); apply walk_entry in Ht; auto.
      * intros [<-|[<-|[]]]; eexists; (split; [|apply walk_entry; reflexivity]); cbn; auto.
    + apply agree_one. auto.
  - intros l Hl [H1 H2]. cbn [titems vars]. apply agree_sum; auto.
  - intros v Hv H. cbn [full titems vars] in *. apply agree_one. auto.
  - intros [].
Qed.
