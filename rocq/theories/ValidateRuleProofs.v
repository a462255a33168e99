(** When validating a lexicon gives no errors. *)
From Verif Require Import Base BaseFacts TargetModel TargetSpec RuleValues RuleItemModel RuleItemSpec RuleVariationSpec ValidateModel ValidateSpec ValidateProofs.
From Coq Require Import ZArith ZifyBool.

Lemma loop_more (L : Type) (default_of : L -> option (list (titem L))) fuel : forall k st next c circ warn target v,
  chk_loop default_of fuel st next c circ warn target = Some v -> chk_loop default_of (fuel + k) st next c circ warn target = Some v.
Proof.
  induction fuel as [|fuel IH]; intros k st next c circ warn target v E; [discriminate|]. cbn [Nat.add chk_loop] in E |- *.
  destruct (chk_items (snd c) target st next) as [v0|[st' next']]; [exact E|]. destruct (last_opt st') as [new|]; [|discriminate].
  destruct (fst new =? fst c); [exact E|]. destruct (100 <? length (add_id (fst c) circ)); [exact E|]. destruct (default_of (snd new)); [|exact E]. apply IH. exact E.
Qed.
Lemma check_det (L : Type) (default_of : L -> option (list (titem L))) f1 f2 l items v1 v2 :
  check default_of f1 l items = Some v1 -> check default_of f2 l items = Some v2 -> v1 = v2.
Proof.
  unfold check. intros E1 E2. apply (loop_more L default_of f1 f2) in E1. apply (loop_more L default_of f2 f1) in E2. rewrite Nat.add_comm in E2. congruence.
Qed.

Lemma valid_entry x : valid_target x = true <-> target_entry x.
Proof.
  unfold target_entry, is_target. split.
  - destruct x as [o| |]; cbn; [|auto|discriminate]. destruct o as [a| | | | | | | | |]; try discriminate. intros H. right. exists a. split; [reflexivity|].
    destruct (as_int a) as [z|]; [left; eauto|]. destruct a; try discriminate. right. eauto.
  - intros [-> | (a & -> & [[z E]|(l & arg & ->)])]; [reflexivity|cbn; rewrite E; reflexivity|reflexivity].
Qed.
Lemma rule_errors rest n errs : validate_rule rest n = Some errs ->
  exists vs, variations rest = Some vs /\ (errs = [] <-> forall v x, In v vs -> In x (tl v) -> target_entry x).
Proof.
  unfold validate_rule. destruct (variations rest) as [vs|]; [|discriminate]. intros E. injection E as <-. exists vs. split; [reflexivity|]. split.
  - intros H v x Hv Hx. apply valid_entry. destruct (valid_target x) eqn:Ex; [reflexivity|]. exfalso.
    assert (In (EInvalid n) (flat_map (fun path => map (fun _ => EInvalid n) (filter (fun t => negb (valid_target t)) (tl path))) vs)) as Hi.
    { apply in_flat_map. exists v. split; [exact Hv|]. apply (in_map (fun _ => EInvalid n)) with (x := x). apply filter_In. rewrite Ex. auto. }
    rewrite H in Hi. destruct Hi.
  - intros H. induction vs as [|v vs IH]; [reflexivity|]. cbn [flat_map]. rewrite IH by (intros v' x Hv'; apply H; right; exact Hv'). rewrite app_nil_r.
    destruct (filter (fun t => negb (valid_target t)) (tl v)) as [|x r] eqn:Ef; [reflexivity|]. exfalso.
    assert (In x (filter (fun t => negb (valid_target t)) (tl v))) as Hx by (rewrite Ef; left; reflexivity). apply filter_In in Hx as [Hx Hn].
    rewrite (proj2 (valid_entry x) (H v x (or_introl eq_refl) Hx)) in Hn. discriminate.
Qed.

Section Proofs.
Variable P : Type.
Variable compiles : P -> bool.
Variable rules_of : nat * option pv -> list (vrule P).
Notation default_of := (fun l => first_target (rules_of l)).

(** What is asked of one rule. *)
Definition rule_good (l : nat * option pv) (r : vrule P) : Prop :=
  match r with
  | RBad | RSeq _ [] => False
  | RSeq PAction _ => True
  | RSeq PTarget rest => forall f v, check default_of f l (map titem_of rest) = Some v -> is_error v = false
  | RSeq PNone rest => forall vs v x, variations rest = Some vs -> In v vs -> In x (tl v) -> target_entry x
  | RSeq (PRegex p) rest => compiles p = true /\ forall vs v x, variations rest = Some vs -> In v vs -> In x (tl v) -> target_entry x
  end.
Lemma rules_good fuel l rules : forall n act tg errs act' tg',
  (forall a rest, In (RSeq PAction (a :: rest)) rules -> obj_truth a = true) ->
  val_rules compiles rules_of fuel l n act tg rules = Some (errs, act', tg') ->
  (errs = [] /\ act' && tg' = false <-> Forall (rule_good l) rules /\ Nat.b2n act + Nat.b2n tg + length (filter is_default rules) <= 1).
Proof.
  induction rules as [|r rules IH]; intros n act tg errs act' tg' Ht E.
  - injection E as <- <- <-. split.
    + intros [_ H]. split; [constructor|]. destruct act, tg; cbn in *; try lia; discriminate.
    + intros [_ H]. split; [reflexivity|]. destruct act, tg; cbn in *; try lia; reflexivity.
  - assert (Ht' : forall a rest, In (RSeq PAction (a :: rest)) rules -> obj_truth a = true) by (intros a rest H; apply (Ht a rest); right; exact H).
    cbn [val_rules] in E. match type of E with match ?x with _ => _ end = _ => destruct x as [[[e1 act1] tg1]|] eqn:E1; [|discriminate] end.
    destruct (val_rules compiles rules_of fuel l (S n) act1 tg1 rules) as [[[e2 act2] tg2]|] eqn:E2; [|discriminate]. injection E as <- <- <-.
    specialize (IH _ _ _ _ _ _ Ht' E2).
    assert (Happ : e1 ++ e2 = [] /\ act2 && tg2 = false <-> e1 = [] /\ (e2 = [] /\ act2 && tg2 = false)).
    { split; [intros [H1 H2]; apply app_eq_nil in H1; tauto|intros (-> & -> & H); auto]. }
    rewrite Happ, IH. clear Happ IH E2. rewrite Forall_cons_iff. cbn [filter].
    destruct r as [|p rest]; [injection E1 as <- <- <-; cbn [rule_good]; split; [intros [H _]; discriminate|tauto]|].
    destruct rest as [|a rest]; [destruct p; injection E1 as <- <- <-; cbn [rule_good]; (split; [intros [H _]; discriminate|tauto])|].
    destruct p as [| | |p]; cbn [is_default rule_good length].
    + destruct act; [injection E1 as <- <- <-; split; [intros [H _]; discriminate|intros [_ H]; cbn in H; lia]|]. injection E1 as <- <- <-.
      rewrite (Ht a rest (or_introl eq_refl)). cbn [Nat.b2n]. split; [intros (_ & H1 & H2)|intros ((_ & H1) & H2)]; repeat split; auto; lia.
    + destruct tg; [injection E1 as <- <- <-; split; [intros [H _]; discriminate|intros [_ H]; destruct act; cbn in H; lia]|].
      destruct (check default_of fuel l (map titem_of (a :: rest))) as [v|] eqn:Ec; [|discriminate]. injection E1 as <- <- <-. cbn [Nat.b2n].
      assert (Hv : (if is_error v then [EDefault v] else []) = [] <-> forall f v0, check default_of f l (map titem_of (a :: rest)) = Some v0 -> is_error v0 = false).
      { split; [|intros H; rewrite (H _ _ Ec); reflexivity]. intros H f v0 E0. rewrite (check_det _ _ _ _ _ _ _ _ E0 Ec). destruct (is_error v); [discriminate|reflexivity]. }
      rewrite Hv. split; [intros (H0 & H1 & H2)|intros ((H0 & H1) & H2)]; repeat split; auto; lia.
    + destruct (validate_rule (a :: rest) n) as [errs|] eqn:Er; [|discriminate]. injection E1 as <- <- <-. destruct (rule_errors _ _ _ Er) as (vs & Ev & Hx). rewrite Hx.
      split; [intros (H0 & H1 & H2); repeat split; auto; intros vs' v x Ev'; rewrite Ev in Ev'; injection Ev' as <-; apply H0|intros ((H0 & H1) & H2); repeat split; auto; intros v x; exact (H0 vs v x Ev)].
    + destruct (validate_rule (a :: rest) n) as [errs|] eqn:Er; [|discriminate]. injection E1 as <- <- <-. destruct (rule_errors _ _ _ Er) as (vs & Ev & Hx).
      assert (Hp : (if compiles p then [] else [ERegex n]) ++ errs = [] <-> compiles p = true /\ errs = []).
      { destruct (compiles p); cbn; split; try tauto; try discriminate. intros [H _]. discriminate. }
      rewrite Hp, Hx. split; [intros ((H & H0) & H1 & H2); repeat split; auto; intros vs' v x Ev'; rewrite Ev in Ev'; injection Ev' as <-; apply H0|intros (((H & H0) & H1) & H2); repeat split; auto; intros v x; exact (H0 vs v x Ev)].
Qed.
Lemma first_in rules items : first_target rules = Some items -> exists rest : list obj, In (RSeq (P := P) PTarget rest) rules /\ items = map titem_of rest.
Proof.
  induction rules as [|r rules IH]; cbn [first_target]; [discriminate|]. intros E.
  assert (Hrec : first_target rules = Some items -> exists rest, In (RSeq PTarget rest) (r :: rules) /\ items = map titem_of rest).
  { intros H. destruct (IH H) as (rest & H1 & H2). exists rest. split; [right; exact H1|exact H2]. }
  destruct r as [|[] rest]; auto. injection E as <-. exists rest. split; [left; reflexivity|reflexivity].
Qed.
Lemma one_first rules rest : length (filter is_default rules) <= 1 -> In (RSeq (P := P) PTarget rest) rules -> first_target rules = Some (map titem_of rest).
Proof.
  induction rules as [|r rules IH]; intros Hl Hi; [destruct Hi|]. cbn [filter] in Hl. destruct Hi as [-> | Hi]; [reflexivity|].
  assert (Hf : In (RSeq PTarget rest) (filter is_default rules)) by (apply filter_In; auto).
  destruct r as [|[] rest0]; cbn [is_default] in Hl; cbn [first_target]; try (apply IH; [exact Hl|exact Hi]);
    destruct (filter is_default rules); [destruct Hf|cbn in Hl; lia|destruct Hf|cbn in Hl; lia].
Qed.
Lemma validated fuel l errs : true_actions rules_of l -> validate compiles rules_of fuel l = Some errs -> (errs = [] <-> in_order compiles rules_of l).
Proof.
  unfold validate. intros Ht E. destruct (val_rules compiles rules_of fuel l 1 false false (rules_of l)) as [[[e act] tg]|] eqn:Ev; [|discriminate]. injection E as <-.
  pose proof (rules_good _ _ _ _ _ _ _ _ _ Ht Ev) as Hg. cbn [Nat.b2n Nat.add] in Hg.
  assert (Happ : (e ++ if act && tg then [EBoth] else []) = [] <-> e = [] /\ act && tg = false).
  { destruct (act && tg); split; [intros H; apply app_eq_nil in H as [_ H]; discriminate|intros [_ H]; discriminate|intros H; rewrite app_nil_r in H; auto|intros [-> _]; reflexivity]. }
  rewrite Happ, Hg. unfold in_order. rewrite Forall_forall. split.
  - intros [H1 H2]. split; [|split; [exact H2|split; [|split]]].
    + intros r Hr. specialize (H1 r Hr). destruct r as [|p [|a rest]]; [contradiction|destruct p; contradiction|]. eauto.
    + intros p rest Hr. specialize (H1 _ Hr). destruct rest; cbn in H1; [contradiction|]. apply H1.
    + intros r p rest vs v x Hr -> Hd Hvs Hv Hx. specialize (H1 _ Hr). destruct p, rest; cbn in H1, Hd; try contradiction; try discriminate; [exact (H1 vs v x Hvs Hv Hx)|exact (proj2 H1 vs v x Hvs Hv Hx)].
    + intros v (items & f & Ed & Ec). apply first_in in Ed as (rest & Hr & ->). specialize (H1 _ Hr). destruct rest; cbn [rule_good] in H1; [contradiction|]. exact (H1 f v Ec).
  - intros (H1 & H2 & H3 & H4 & H5). split; [|exact H2]. intros r Hr. destruct (H1 r Hr) as (p & a & rest & ->). destruct p as [| | |p]; cbn [rule_good].
    + exact I.
    + intros f v Ec. apply H5. exists (map titem_of (a :: rest)), f. split; [exact (one_first _ _ H2 Hr)|exact Ec].
    + intros vs v x. exact (H4 _ _ _ vs v x Hr eq_refl eq_refl).
    + split; [exact (H3 p _ Hr)|]. intros vs v x. exact (H4 _ _ _ vs v x Hr eq_refl eq_refl).
Qed.
End Proofs.

(** An entry that can be a target stands for targets only. *)
Lemma listed_target a v : listed a v -> target_entry v -> is_target a.
Proof.
  intros H [-> | (b & -> & T)]; [left; exact H|]. cbn in H. destruct H as [-> | (l & x & y & -> & ->)]; [exact T|]. right. eauto.
Qed.
